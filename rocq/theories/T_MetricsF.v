(** * T_MetricsF: properties C103, C104 (EnergyDistribution and Distance in
    the arithmetic of the machine). *)
Require Import List Bool Arith ZArith Reals Lra Lia.
Require Import Flocq.Core.Core Flocq.IEEE754.BinarySingleNaN.
Require Import Verif.M_Base Verif.M_Params Verif.M_Buffer Verif.M_Float Verif.M_Binary32 Verif.M_Metrics Verif.M_MetricsF.
Require Import Verif.S_Params Verif.S_Buffer Verif.S_Exact Verif.S_Metrics Verif.S_MetricsF.
Require Import Verif.P_Binary32 Verif.P_MetricsF3 Verif.P_MetricsF4 Verif.P_MetricsF5 Verif.P_MetricsF6.
Import ListNotations.
Open Scope R_scope.

(** ** C103: EnergyDistribution *)
(** Whatever order the squares are added up in: one float per channel and
    subband, to within 2^-23 of the exact sum of squares; never NaN and never
    negative, and infinite exactly where floats end (with a factor 16 of
    doubt). *)
Theorem C103_energies sum (b : buffer f32) : summation64 sum -> finite_buffer b ->
  Forall (fun m => (Z.of_nat (length (elts m)) <= 2 ^ 27)%Z) (subbands b) ->
  (no_elements b -> energy_distribution32 sum b = []) /\
  (~ no_elements b -> Forall2 (Forall2 energy_close) (energy_distribution32 sum b) (bdec b)).
Proof. exact (energies32_ok sum b). Qed.
Print Assumptions C103_energies.

(** a sum of this kind, and a buffer with energies that are not exact *)
Definition third : f32 := Bdiv mode_NE (f32_of_int 1) (f32_of_int 3).
Definition two_bands : buffer f32 :=
  Buffer (Params [2]%Z 1 1 1) [[mcolvec [third]; mcolvec [f32_of_int 100]]].
Example C103_case : summation64 running64 /\ finite_buffer two_bands /\ ~ no_elements two_bands /\
  Forall (fun m => (Z.of_nat (length (elts m)) <= 2 ^ 27)%Z) (subbands two_bands).
Proof.
  split; [exact running64_ok|]. split; [|split].
  - repeat constructor.
  - intros H. destruct (H _ _ (or_introl eq_refl) (or_introl eq_refl)) as [E|E]; discriminate.
  - repeat constructor; simpl; lia.
Qed.

(** ** C104: Distance *)
(** The value: the mean squared difference, to within (N + 8) * 2^-23 where N
    is the number of values of the largest subband (the squares of a subband
    are added up in floats, in any order). *)
Theorem C104_accuracy sum square b1 b2 N : summation32 sum -> good_square square ->
  comparable (bpar b1) (bpar b2) -> small_shape (bpar b1) -> same_sizes32 b1 b2 -> finite_buffer b1 -> finite_buffer b2 ->
  Forall (fun m => (length (elts m) <= N)%nat) (subbands b1) -> (Z.of_nat (N + 8) <= 2 ^ 22)%Z ->
  (Z.of_nat (length (subbands b1)) <= 2 ^ 27)%Z ->
  let total := sum_sq_diff (values32 b1) (values32 b2) in
  let n := IZR (samples (bpar b1)) in
  total <= bpow radix2 120 ->
  exists d, distance32 sum square b1 b2 = Ok d /\ is_finite d = true /\ 0 <= B2R d /\
    Rabs (B2R d - total / n) <= INR (N + 8) * bpow radix2 (-23) * (total / n)
      + (INR (length (values32 b1)) / n * bpow radix2 (-148) + bpow radix2 (-149)).
Proof. exact (distance32_close sum square b1 b2 N). Qed.
Print Assumptions C104_accuracy.

(** Symmetric to the last bit, also with infinities and NaN. *)
Theorem C104_symmetric sum square b1 b2 : same_sizes32 b1 b2 -> comparable (bpar b1) (bpar b2) ->
  distance32 sum square b1 b2 = distance32 sum square b2 b1.
Proof. exact (distance32_sym sum square b1 b2). Qed.
Print Assumptions C104_symmetric.

(** The distance of a buffer of finite values to itself is zero. *)
Theorem C104_itself sum square b : summation32 sum -> good_square square ->
  small_shape (bpar b) -> finite_buffer b -> Forall (Forall mwf) (bdec b) ->
  exists d, distance32 sum square b b = Ok d /\ is_finite d = true /\ B2R d = 0.
Proof. exact (distance_self sum square b). Qed.
Print Assumptions C104_itself.

(** A distance of zero does not mean equal buffers: small differences
    disappear in the squares. *)
Definition tiny : f32 := binary_normalize 24 128 _ _ mode_NE 1 (-80) false.
Definition one_value (x : f32) : buffer f32 := Buffer (Params [1]%Z 1 0 1) [[mcolvec [x]]].
Theorem C104_zero_only_if_equal_refuted sum square : summation32 sum -> good_square square ->
  exists b1 b2, comparable (bpar b1) (bpar b2) /\ small_shape (bpar b1) /\ same_sizes32 b1 b2 /\
    finite_buffer b1 /\ finite_buffer b2 /\ values32 b1 <> values32 b2 /\
    exists d, distance32 sum square b1 b2 = Ok d /\ is_finite d = true /\ B2R d = 0.
Proof.
  intros HS HQ. exists (one_value tiny), (one_value (f32_of_int 0)).
  assert (HC : comparable (bpar (one_value tiny)) (bpar (one_value (f32_of_int 0)))) by (repeat split).
  assert (HP : small_shape (bpar (one_value tiny))) by (repeat split; simpl; try lia; repeat constructor; lia).
  assert (HZ : same_sizes32 (one_value tiny) (one_value (f32_of_int 0))) by (repeat constructor).
  split; [exact HC|]. split; [exact HP|]. split; [exact HZ|]. split; [repeat constructor|]. split; [repeat constructor|]. split.
  { intros E. injection E as E. change (F2R (Float radix2 8388608 (-103)) = 0) in E.
    pose proof (F2R_gt_0 radix2 (Float radix2 8388608 (-103)) eq_refl). lra. }
  apply distance_zero; auto. constructor; [|constructor]. constructor; [|constructor]. split; [reflexivity|].
  match goal with |- B2R ?x = 0 => replace x with (B754_zero false : f32) by (vm_compute; reflexivity) end. reflexivity.
Qed.
Print Assumptions C104_zero_only_if_equal_refuted.

(** With different numbers of steps the result is NaN. *)
Theorem C104_different_steps sum square b1 b2 :
  signum (bpar b1) = signum (bpar b2) -> shape (bpar b1) = shape (bpar b2) ->
  params_rep (bpar b1) -> params_rep (bpar b2) -> steps (bpar b1) <> steps (bpar b2) ->
  distance32 sum square b1 b2 = Ok B754_nan.
Proof. exact (distance32_nan sum square b1 b2). Qed.
Print Assumptions C104_different_steps.

(** sums and squares of this kind exist; two buffers whose distance is about
    (100 - 1/3)^2 = 9933.444... *)
Definition swapped_bands : buffer f32 :=
  Buffer (Params [2]%Z 1 1 1) [[mcolvec [f32_of_int 100]; mcolvec [third]]].
Example C104_case : summation32 running32 /\ good_square (fun x => Bmult mode_NE x x) /\
  comparable (bpar two_bands) (bpar swapped_bands) /\ small_shape (bpar two_bands) /\
  same_sizes32 two_bands swapped_bands /\ finite_buffer swapped_bands /\
  Forall (fun m => (length (elts m) <= 1)%nat) (subbands two_bands) /\
  match distance32 running32 (fun x => Bmult mode_NE x x) two_bands swapped_bands with
  | Ok d => B2SF d = SpecFloat.S754_finite false 10171847 (-10)
  | _ => False
  end.
Proof.
  split; [exact running32_ok|]. split; [exact product_ok|]. split; [repeat split|].
  split; [repeat split; simpl; try lia; repeat constructor; lia|]. split; [repeat constructor|]. split; [repeat constructor|].
  split; [repeat constructor|]. vm_compute. reflexivity.
Qed.
