(** * T_Log2: property C02 with the double computation of the number of steps *)
Require Import List ZArith Lia Reals.
Require Import Flocq.Core.Core Flocq.IEEE754.BinarySingleNaN.
From Verif Require Import M_Base M_Params M_Buffer M_Float M_Log2 S_Params S_Log2 P_Params P_Log2.
Import ListNotations.
Open Scope Z_scope.

(** C02: whatever log2 the C library has, if it is exact on powers of two and
    accurate to 2^-52 elsewhere, then the step counts accepted for side n and
    wavelet t are exactly those up to the greatest k with 2^k (2t-1) <= n. *)
Theorem C02_max_steps (T : Type) log2 t n num :
  good_log2 log2 -> 1 <= t < 2 ^ 30 -> 2 * t <= n < 2 ^ 45 -> 0 <= num < 2 ^ 64 ->
  exists k, 0 <= k < 64 /\ 2 ^ k * (2 * t - 1) <= n /\
    (forall k', 0 <= k' -> 2 ^ k' * (2 * t - 1) <= n -> k' <= k) /\
    forall s, 0 <= s < 2 ^ 64 ->
      (s <= k <-> exists b : buffer T, new_buffer_lib log2 (Params [n] num s t) = Ok b) /\
      (k < s <-> @new_buffer_lib log2 T (Params [n] num s t) = Throw).
Proof.
  intros G Ht Hn Hnum. destruct (max_steps_correct T t n num Ht ltac:(lia) Hnum) as (k & H1 & H2 & H3 & H4).
  exists k. repeat split; try tauto; try lia; try (apply H3; auto).
  all: rewrite constructor_floats; cbn [wtype shape]; auto; try lia; try (repeat constructor; lia); apply H4; auto.
Qed.
Print Assumptions C02_max_steps.

(** the constructor is the one of M_Buffer, to which C01 and the rest refer *)
Theorem C02_constructor (T : Type) log2 p :
  good_log2 log2 -> 0 <= wtype p < 2 ^ 30 -> Forall (fun n => 0 <= n < 2 ^ 45) (shape p) ->
  @new_buffer_lib log2 T p = new_buffer p.
Proof. exact (constructor_floats log2 p). Qed.
Print Assumptions C02_constructor.

(** so is the computation of padded sides (C03) *)
Theorem C02_padded log2 t sh k :
  good_log2 log2 -> 1 <= t < 2 ^ 30 -> Forall (fun n => 2 * t - 1 <= n < 2 ^ 45) sh ->
  calc_padded_lib log2 t sh k = calc_padded t sh k.
Proof. exact (padded_floats log2 t sh k). Qed.
Print Assumptions C02_padded.

(** a correctly rounded log2 is good, and there is one *)
Theorem C02_rounded_is_good log2 : rounded_log2 log2 -> good_log2 log2.
Proof. exact (rounded_good log2). Qed.
Print Assumptions C02_rounded_is_good.
Example C02_good_exists : exists log2, rounded_log2 log2 /\ good_log2 log2.
Proof. exists ideal_log2. split; [exact ideal_rounded|exact (rounded_good _ ideal_rounded)]. Qed.
Example C02_case : 1 <= 4 < 2 ^ 30 /\ 2 * 4 <= 1000 < 2 ^ 45 /\ 2 ^ 7 * (2 * 4 - 1) <= 1000 < 2 ^ 8 * (2 * 4 - 1).
Proof. lia. Qed.

(** Without the bound on the side the property is false even for the best
    log2: 2^50-1 elements and 50 Haar steps are accepted, as log2 (2^50-1) is
    rounded to 50. *)
Theorem C02_huge_side_refuted (T : Type) log2 : rounded_log2 log2 ->
  exists t n s, 1 <= t < 11 /\ 2 * t <= n < 2 ^ 51 /\ n < 2 ^ s * (2 * t - 1) /\
    exists b : buffer T, new_buffer_lib log2 (Params [n] 1 s t) = Ok b.
Proof.
  intros H. exists 1, (2 ^ 50 - 1), 50. split; [lia|]. split; [lia|]. split; [lia|]. exact (huge_side log2 H).
Qed.
Print Assumptions C02_huge_side_refuted.
