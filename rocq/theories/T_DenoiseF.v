(** * T_DenoiseF: property C91 (the library denoisers on floats). *)
Require Import List Bool Arith ZArith Lia Reals Lra.
Require Import Flocq.Core.Core Flocq.IEEE754.BinarySingleNaN.
Require Import Verif.M_Base Verif.M_Params Verif.M_Buffer Verif.M_Float Verif.M_Binary32 Verif.M_Denoise Verif.M_Mag32.
Require Import Verif.S_Params Verif.S_Buffer Verif.S_Round Verif.S_Denoise Verif.P_Float Verif.P_Denoise Verif.P_DenoiseF.
Import ListNotations.
Open Scope R_scope.

Local Lemma inf_gt (x th : f32) : is_nan x = false -> is_finite x = false -> is_finite th = true -> mgt (mabs x) th = true.
Proof. destruct x; try discriminate. intros _ _. destruct th as [ | | | []]; try discriminate; reflexivity. Qed.

(** [nearest x]: x rounded to the nearest float, ties to even *)
Definition nearest (x : R) : R := round radix2 (FLT_exp (-149) 24) ZnearestE x.

(** ** ThresholdAbsDenoiseAlgorithm<float>(a, b): a value is kept exactly when
    its magnitude is above the threshold, infinities included; a NaN becomes 0. *)
Theorem C91_threshold (a b : f32) step : is_finite (get_threshold a b step) = true ->
  let th := B2R (get_threshold a b step) in
  (forall data, exists out, threshold1 a b data step = Ok out /\ length out = length data /\
    (forall i x, nth_error data i = Some x -> exists y, nth_error out i = Some y /\
       (is_nan x = true -> y = B754_zero false) /\
       (is_nan x = false -> is_finite x = false -> y = x) /\
       (is_finite x = true -> (th < Rabs (B2R x) -> y = x) /\ (Rabs (B2R x) <= th -> y = B754_zero false)))) /\
  (forall data, mwf data -> exists out, threshold2 a b data step = Ok out /\ sized (rows data) (cols data) out /\
    (forall i j x, mget data i j = Ok x -> exists y, mget out i j = Ok y /\
       (is_nan x = true -> y = B754_zero false) /\
       (is_nan x = false -> is_finite x = false -> y = x) /\
       (is_finite x = true -> (th < Rabs (B2R x) -> y = x) /\ (Rabs (B2R x) <= th -> y = B754_zero false)))).
Proof.
  intros Ft th. split.
  - intros data. destruct (threshold_semantics1 a b data step) as (out & E & L & H & _). exists out. split; [exact E|]. split; [exact L|].
    intros i x Hx. eexists. split; [apply H; eauto|]. split; [intros N; rewrite nan_gt by auto; reflexivity|].
    split; [intros N F; rewrite inf_gt by auto; reflexivity|]. intros Fx. exact (thr_rule a b step x Ft Fx).
  - intros data W. destruct (threshold_semantics2 a b data step W) as (out & E & L & H & _). exists out. split; [exact E|]. split; [exact L|].
    intros i j x Hx. eexists. split; [apply H; eauto|]. split; [intros N; rewrite nan_gt by auto; reflexivity|].
    split; [intros N F; rewrite inf_gt by auto; reflexivity|]. intros Fx. exact (thr_rule a b step x Ft Fx).
Qed.
Print Assumptions C91_threshold.
(** a threshold that is NaN or positive infinity zeroes everything, negative
    infinity keeps all but NaNs *)
Theorem C91_threshold_not_finite (a b : f32) step :
  (is_nan (get_threshold a b step) = true \/ get_threshold a b step = B754_infinity false ->
    (forall data, threshold1 a b data step = Ok (map (fun _ => B754_zero false) data)) /\
    (forall data, mwf data -> threshold2 a b data step = Ok (Mat (rows data) (cols data) (map (fun _ => B754_zero false) (elts data))))) /\
  (get_threshold a b step = B754_infinity true ->
    (forall data, Forall (fun x : f32 => is_nan x = false) data -> threshold1 a b data step = Ok data) /\
    (forall data, mwf data -> Forall (fun x : f32 => is_nan x = false) (elts data) -> threshold2 a b data step = Ok data)).
Proof.
  split.
  - intros H. assert (Z0 : forall x : f32, thr_val a b step x = B754_zero false).
    { intros x. unfold thr_val. destruct H as [H|H]; [destruct (get_threshold a b step); try discriminate H|rewrite H];
        destruct x as [ | [] | | ]; reflexivity. }
    split.
    + intros data. rewrite threshold1_ok. f_equal. apply map_ext. exact Z0.
    + intros data W. rewrite threshold2_ok by exact W. do 2 f_equal. apply map_ext. exact Z0.
  - intros H. assert (Z0 : forall x : f32, is_nan x = false -> thr_val a b step x = x).
    { intros x N. unfold thr_val. rewrite H. destruct x as [ | [] | | ]; try discriminate N; reflexivity. }
    assert (M : forall l, Forall (fun x : f32 => is_nan x = false) l -> map (thr_val a b step) l = l).
    { induction 1; cbn [map]; [reflexivity|]. rewrite Z0 by assumption. congruence. }
    split.
    + intros data F. rewrite threshold1_ok, M by exact F. reflexivity.
    + intros data W F. rewrite threshold2_ok, M by assumption. destruct data; reflexivity.
Qed.
Print Assumptions C91_threshold_not_finite.

(** the threshold is a * step + b with two roundings *)
Theorem C91_threshold_value (a b : f32) step : (step <= 256)%nat -> is_finite (get_threshold a b step) = true ->
  B2R (get_threshold a b step) = nearest (nearest (B2R a * INR step) + B2R b).
Proof. exact (thr_value a b step). Qed.
Print Assumptions C91_threshold_value.

(** ** SimpleDenoiseAlgorithm<float>(level) for levels between 0 and 1 and
    finite values: no undefined conversion, about n * level values are dropped,
    and none of them is larger than a survivor. *)
Theorem C91_simple_1d ne (level : f32) (data : list f32) :
  nth_element_on (fun x : f32 => is_nan x = false) ne -> is_finite level = true -> 0 <= B2R level <= 1 ->
  (Z.of_nat (length data) <= 2 ^ 62)%Z -> Forall (fun x : f32 => is_finite x = true) data ->
  exists out keep drop, simple1 ne level data = Ok out /\
    Rabs (INR drop - INR (length data) * B2R level) <= 1 + INR (length data) * B2R level / 2 ^ 22 + / 2 ^ 148 /\
    NoDup keep /\ Forall (fun i => (i < length data)%nat) keep /\
    length keep = (length data - Nat.min drop (length data - 1))%nat /\
    keeps_only1 keep data out /\
    forall i j x y, In i keep -> ~ In j keep -> nth_error data i = Some x -> nth_error data j = Some y ->
      Rabs (B2R y) <= Rabs (B2R x).
Proof. exact (simple32_1 ne level data). Qed.
Print Assumptions C91_simple_1d.

Theorem C91_simple_2d ne (level : f32) (data : mat f32) : mwf data ->
  nth_element_on (fun x : f32 => is_nan x = false) ne -> is_finite level = true -> 0 <= B2R level <= 1 ->
  (Z.of_nat (rows data * cols data) <= 2 ^ 62)%Z -> all_finite data ->
  exists out keep drop, simple2 ne level data = Ok out /\
    Rabs (INR drop - INR (rows data * cols data) * B2R level) <= 1 + INR (rows data * cols data) * B2R level / 2 ^ 22 + / 2 ^ 148 /\
    NoDup keep /\ Forall (fun p => (fst p < rows data /\ snd p < cols data)%nat) keep /\
    length keep = (rows data * cols data - Nat.min drop (rows data * cols data - 1))%nat /\
    keeps_only2 keep data out /\
    forall i j i' j' x y, In (i, j) keep -> ~ In (i', j') keep -> mget data i j = Ok x -> mget data i' j' = Ok y ->
      Rabs (B2R y) <= Rabs (B2R x).
Proof. exact (simple32_2 ne level data). Qed.
Print Assumptions C91_simple_2d.

(** Level 0 (or -0) keeps everything. *)
Theorem C91_level_0 ne1 ne2 (level : f32) :
  nth_element_on (fun x : f32 => is_nan x = false) ne1 -> nth_element_on (fun x : f32 => is_nan x = false) ne2 ->
  is_finite level = true -> B2R level = 0 ->
  (forall data : list f32, (Z.of_nat (length data) <= 2 ^ 62)%Z -> Forall (fun x : f32 => is_finite x = true) data ->
     simple1 ne1 level data = Ok data) /\
  (forall data : mat f32, mwf data -> (Z.of_nat (rows data * cols data) <= 2 ^ 62)%Z -> all_finite data ->
     simple2 ne2 level data = Ok data).
Proof. exact (level0_32 ne1 ne2 level). Qed.
Print Assumptions C91_level_0.

(** The size is rounded to a float, so level 1 on 2^25 + 3 values asks for
    more of them to be dropped than there are; the cap at n - 1 is needed. *)
Theorem C91_cap n : Z.of_nat n = (2 ^ 25 + 3)%Z -> exists drop, f32_trunc n (f32_of_int 1) = Ok drop /\ Z.of_nat drop = (2 ^ 25 + 4)%Z.
Proof.
  intros E. exists (Z.to_nat (2 ^ 25 + 4)). split; [|apply Z2Nat.id; vm_compute; discriminate]. unfold f32_trunc. rewrite E.
  set (y := Bmult mode_NE (f32_of_int (2 ^ 25 + 3)) (f32_of_int 1)).
  assert (F : is_finite y = true) by (vm_compute; reflexivity).
  assert (T : Btrunc y = (2 ^ 25 + 4)%Z) by (vm_compute; reflexivity). rewrite F, T. reflexivity.
Qed.
Print Assumptions C91_cap.

(** ** a negative level is undefined: the conversion to size_t *)
Theorem C91_negative_level_refuted : exists (level : f32) (data : list f32),
  is_finite level = true /\ Forall (fun x : f32 => is_finite x = true) data /\
  forall ne, simple1 ne level data = UB.
Proof.
  exists (f32_of_int (-1)), [f32_of_int 5; f32_of_int 7]. split; [reflexivity|]. split; [repeat constructor|].
  intros ne. unfold simple1, slice_index. vm_compute (mtrunc _ _). reflexivity.
Qed.
Print Assumptions C91_negative_level_refuted.

(** *** cases *)
Example C91_contract : nth_element_on (fun x : f32 => is_nan x = false) (@sort32 nat) /\
  nth_element_on (fun x : f32 => is_nan x = false) (@sort32 (nat * nat)).
Proof. exact (conj sort32_contract sort32_contract). Qed.
(** level 0.5 on 3, -7, 1, 5 *)
Definition half : f32 := Bdiv mode_NE (f32_of_int 1) (f32_of_int 2).
Example C91_half : is_finite half = true /\ B2R half = 1 / 2.
Proof. split; [reflexivity|]. vm_compute. lra. Qed.
Example C91_run : option_map (map (@B2SF 24 128)) (match simple1 sort32 half (map f32_of_int [3; -7; 1; 5]%Z) with Ok l => Some l | _ => None end)
  = Some (map (@B2SF 24 128) (map f32_of_int [0; -7; 0; 5]%Z)).
Proof. vm_compute. reflexivity. Qed.
Example C91_threshold_case : is_finite (get_threshold (f32_of_int 2) half 3) = true.
Proof. reflexivity. Qed.
