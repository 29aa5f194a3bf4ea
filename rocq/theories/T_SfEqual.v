(** * T_SfEqual: property C71, comparison of matrices of the legacy compressor *)
Require Import List ZArith Bool Lia ZifyBool.
Import ListNotations.
From Verif Require Import M_Base P_Base M_Archive P_Archive M_Sf M_SfCodec S_SfCodec P_SfCases P_SfValue M_SfEqual P_SfEqual.
Open Scope Z_scope.

(** A matrix of normal numbers (whose rounded values are normal too) compares
    equal to what is read back from its stream. *)
Theorem C71_round_trip_equal cap cap' o :
  sparse o -> o_rows o * o_cols o <= 2 ^ 15 -> (4 * (74 + 3 * length (o_values o)) <= cap)%nat ->
  (4 * (74 + 3 * length (o_values o)) <= cap')%nat ->
  Forall (fun w => normal w /\ normal (kept (o_frag o) w)) (o_values o) ->
  exists blob o' im, compress cap o = Ok (Some blob) /\ decompress (new_impl cap') blob = Ok (Some o', im) /\
    origin_eqb o o' = true.
Proof.
  intros Hs HN H1 H2 HV. destruct (small_round_trip cap cap' o Hs HN H1) as (blob & C & L & _ & D).
  destruct (D ltac:(lia) ltac:(lia)) as (im & D'). exists blob, (read_back o), im. split; [exact C|]. split; [exact D'|].
  apply read_back_equal; auto. destruct Hs. lia.
Qed.
Definition C71_matrix : origin :=
  Origin 7 true 4 4 [1; 3; 7; 8] (map mkword [1067030938; 1065353216; 3225000000; 1072693248]).
Example C71_case : sparse C71_matrix /\ o_rows C71_matrix * o_cols C71_matrix <= 2 ^ 15 /\
  Forall (fun w => normal w /\ normal (kept (o_frag C71_matrix) w)) (o_values C71_matrix).
Proof.
  split; [|split; [cbn; lia|]].
  - constructor; cbn; auto; try lia; try discriminate.
  - unfold normal. repeat constructor; vm_compute; discriminate.
Qed.
Print Assumptions C71_round_trip_equal.

(** Other sizes, positions or numbers of values are never equal. *)
Theorem C71_other_layout a b : origin_eqb a b = true ->
  o_frag a = o_frag b /\ o_row_based a = o_row_based b /\ o_rows a = o_rows b /\ o_cols a = o_cols b /\
  o_indexes a = o_indexes b /\ length (o_values a) = length (o_values b).
Proof. exact (equal_layout a b). Qed.
Print Assumptions C71_other_layout.
Example C71_equal_case : origin_eqb C71_matrix C71_matrix = true.
Proof. vm_compute. reflexivity. Qed.

(** Below the smallest normal number the read matrix differs, even at full
    precision; *)
Theorem C71_subnormal_refuted : exists o blob o' im, sparse o /\ compress 1000 o = Ok (Some blob) /\
  decompress (new_impl 1000) blob = Ok (Some o', im) /\ origin_eqb o o' = false.
Proof.
  set (o := Origin 23 true 1 2 [1] [mkword 8388607]).
  assert (Hs : sparse o) by (constructor; cbn; auto; try lia; try discriminate; repeat (split || constructor); auto; try lia).
  destruct (small_round_trip 1000 1000 o Hs ltac:(cbn; lia) ltac:(cbn; lia)) as (blob & C & L & _ & D).
  cbn [o o_values length Nat.mul Nat.add] in L.
  destruct (D ltac:(lia) ltac:(cbn; lia)) as (im & D'). exists o, blob, (read_back o), im.
  split; [exact Hs|]. split; [exact C|]. split; [exact D'|]. vm_compute. reflexivity.
Qed.
Print Assumptions C71_subnormal_refuted.

(** a NaN is equal to every number; *)
Theorem C71_nan_refuted : exists a b, origin_eqb a b = true /\
  o_values a = [mkword 2143289344] /\ o_values b = [mkword 1065353216].
Proof.
  exists (Origin 23 true 1 1 [0] [mkword 2143289344]), (Origin 23 true 1 1 [0] [mkword 1065353216]).
  split; [vm_compute; reflexivity|auto].
Qed.
Print Assumptions C71_nan_refuted.

(** two matrices of normal numbers can be equal and different at once, because
    the distance is relative to the left one and != asks the right one: *)
Theorem C71_not_equal_refuted : exists a b, origin_eqb a b = true /\ origin_neqb a b = true /\
  Forall normal (o_values a) /\ Forall normal (o_values b).
Proof.
  exists (Origin 7 true 1 1 [0] [mkword 1065353216]), (Origin 7 true 1 1 [0] [mkword (1065353216 - 66052)]).
  split; [vm_compute; reflexivity|]. split; [vm_compute; reflexivity|].
  unfold normal. split; repeat constructor; vm_compute; discriminate.
Qed.
Print Assumptions C71_not_equal_refuted.
