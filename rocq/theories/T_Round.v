(** * T_Round: property C57: decomposition followed by composition with
    rounded arithmetic, in particular IEEE binary32. *)
Require Import List Bool Arith ZArith QArith Qreals Reals Lra Lia.
Require Import Flocq.Core.Core Flocq.IEEE754.BinarySingleNaN.
Require Import Verif.M_Base Verif.M_Params Verif.M_Buffer Verif.M_Float Verif.M_Binary32.
Require Import Verif.S_Params Verif.S_Buffer Verif.S_Exact Verif.S_Round.
Require Import Verif.P_Round3 Verif.P_Binary32 Verif.P_Bin2 Verif.P_Bin3 Verif.P_Float Verif.P_Literal.
Import ListNotations.
Open Scope R_scope.

(** ** Any arithmetic whose sums and products are within u (relative) and eta
    (absolute) of the exact ones, for instance fused multiply-add. *)
Theorem C57_any_rounding u eta (A : Arith R) p (b : buffer R) data :
  rounding u eta A -> 0 <= u -> 0 <= eta ->
  accepted p -> @reachable R A p b ->
  (1 <= signum p)%Z -> Z.of_nat (length data) = signum p -> Forall (shaped p) data ->
  exists b' out, @decompose R A b data null_denoiser = Ok (true, b') /\ @compose R A b' 0 = Ok (true, out) /\
    length out = length data /\
    forall c m o, nth_error data c = Some m -> nth_error out c = Some o ->
      sized (drows p) (dcols p) o /\
      sqrt (total (drows p) (fun i => total (dcols p) (fun j => (at_ o i j - at_ m i j) * (at_ o i j - at_ m i j))))
        <= float_rel u p * sqrt (padded_energy p m) + underflow u eta p.
Proof. exact (fun HR Hu He HA => any_rounding u eta A HR Hu He p HA b data). Qed.
Print Assumptions C57_any_rounding.

(** binary32 rounding of every operation, on the reals, is such an arithmetic *)
Example rounded_to_nearest : rounding (/ 2 ^ 24) (/ 2 ^ 150) A32.
Proof.
  replace (/ 2 ^ 24) with u32 by (unfold u32; rewrite (pow_IZR 2 24); reflexivity).
  replace (/ 2 ^ 150) with eta32 by (unfold eta32; rewrite (pow_IZR 2 150); reflexivity).
  exact A32_rounding.
Qed.

(** ** The program with floats: for finite signals of norm up to 2^110 nothing
    overflows, every stored coefficient is finite, and the error is bounded. *)
Theorem C57_binary32 p (b : buffer f32) data :
  accepted p -> reachable p b ->
  (1 <= signum p)%Z -> Z.of_nat (length data) = signum p -> Forall (shaped p) data ->
  Forall all_finite data -> Forall (fun m => padded_energy p (values m) <= 2 ^ 220) data ->
  exists b' out, decompose b data null_denoiser = Ok (true, b') /\ compose b' 0 = Ok (true, out) /\
    length out = length data /\
    Forall (Forall all_finite) (bdec b') /\
    forall c m o, nth_error data c = Some m -> nth_error out c = Some o ->
      sized (drows p) (dcols p) o /\ all_finite o /\
      sqrt (total (drows p) (fun i => total (dcols p) (fun j =>
              (at_ (values o) i j - at_ (values m) i j) * (at_ (values o) i j - at_ (values m) i j))))
        <= float_rel (/ 2 ^ 24) p * sqrt (padded_energy p (values m)) + underflow (/ 2 ^ 24) (/ 2 ^ 150) p.
Proof.
  replace (/ 2 ^ 24) with u32 by (unfold u32; rewrite (pow_IZR 2 24); reflexivity).
  replace (/ 2 ^ 150) with eta32 by (unfold eta32; rewrite (pow_IZR 2 150); reflexivity).
  exact (fun HA => binary32_error p HA b data).
Qed.
Print Assumptions C57_binary32.

(** The two constants, for every accepted parameter set: *)
Theorem C57_bound p : accepted p ->
  float_rel (/ 2 ^ 24) p <= INR (passes p * nsteps p) * (75 / 10 ^ 7) /\
  underflow (/ 2 ^ 24) (/ 2 ^ 150) p <= INR (nsteps p) / 2 ^ 74.
Proof.
  replace (/ 2 ^ 24) with u32 by (unfold u32; rewrite (pow_IZR 2 24); reflexivity).
  replace (/ 2 ^ 150) with eta32 by (unfold eta32; rewrite (pow_IZR 2 150); reflexivity).
  exact (float_bounds p).
Qed.
Print Assumptions C57_bound.

(** In terms of samples only: magnitudes up to B, every sample comes back
    within the stated distance. *)
Theorem C57_samples p B (b : buffer f32) data :
  accepted p -> reachable p b ->
  (1 <= signum p)%Z -> Z.of_nat (length data) = signum p -> Forall (shaped p) data -> B <= 2 ^ 46 ->
  Forall (fun m => Forall (fun x : f32 => is_finite x = true /\ Rabs (B2R x) <= B) (elts m)) data ->
  exists b' out, decompose b data null_denoiser = Ok (true, b') /\ compose b' 0 = Ok (true, out) /\
    length out = length data /\
    forall c m o, nth_error data c = Some m -> nth_error out c = Some o ->
      sized (drows p) (dcols p) o /\ all_finite o /\
      forall i j, (i < drows p)%nat -> (j < dcols p)%nat ->
        Rabs (at_ (values o) i j - at_ (values m) i j) <=
        INR (passes p * nsteps p) * (75 / 10 ^ 7) * (sqrt (INR (level_rows p 0 * level_cols p 0)) * B) + INR (nsteps p) / 2 ^ 74.
Proof. exact (fun HA => binary32_samples p HA B b data). Qed.
Print Assumptions C57_samples.

(** a 7 x 5 image with two channels, one step of DB1, sample values 0..34 *)
Definition ex1 : params := Params [7; 5]%Z 2 1 1.
Definition ex1_channel : mat f32 := Mat 5 7 (map (fun k => f32_of_int (Z.of_nat k)) (seq 0 35)).
Example ex1_accepted : accepted ex1.
Proof.
  unfold accepted, ex1, params_rep, legal, u64, i32; cbn [shape signum steps wtype length].
  repeat split; auto; repeat constructor; lia.
Qed.
Example ex1_reachable : exists b : buffer f32, reachable ex1 b.
Proof. eexists. apply reach_new. vm_compute. reflexivity. Qed.
Example ex1_data : Forall (shaped ex1) [ex1_channel; ex1_channel] /\
  Forall (fun m => Forall (fun x : f32 => is_finite x = true /\ Rabs (B2R x) <= 34) (elts m)) [ex1_channel; ex1_channel].
Proof.
  split; [repeat constructor|].
  assert (H : Forall (fun x : f32 => is_finite x = true /\ Rabs (B2R x) <= 34) (elts ex1_channel)).
  { apply Forall_forall. intros x Hx. apply in_map_iff in Hx as (k & <- & Hk). apply in_seq in Hk.
    destruct (val_int (Z.of_nat k) ltac:(lia)) as [V F]. split; auto. rewrite V, Rabs_pos_eq by (apply IZR_le; lia).
    apply IZR_le. lia. }
  constructor; [exact H|constructor; [exact H|constructor]].
Qed.

(** ** The bound on the norm is needed: two samples of 3 * 2^126 are finite,
    the coefficients of their decomposition are not. *)
Definition big : f32 := binary_normalize 24 128 eq_refl eq_refl mode_NE 3 126 false.
Definition infinite (m : mat f32) : Prop := Exists (fun x : f32 => is_finite x = false) (elts m).
Theorem C57_overflow_refuted : exists p (b b' : buffer f32) data,
  accepted p /\ reachable p b /\ Forall (shaped p) data /\ Forall all_finite data /\
  decompose b data null_denoiser = Ok (true, b') /\ Exists (Exists infinite) (bdec b').
Proof.
  pose (p := Params [2]%Z 1 1 1).
  exists p. eexists _, _. exists [Mat 2 1 [big; big]].
  split; [unfold accepted, p, params_rep, legal, u64, i32; cbn [shape signum steps wtype length]; repeat split; auto; repeat constructor; lia|].
  split; [apply reach_new; vm_compute; reflexivity|].
  split; [repeat constructor|]. split; [repeat constructor|].
  split; [vm_compute; reflexivity|].
  cbn [bdec]. apply Exists_exists. eexists. split; [left; reflexivity|].
  apply Exists_exists. eexists. split; [right; left; reflexivity|].
  unfold infinite. cbn [elts]. left. reflexivity.
Qed.
Print Assumptions C57_overflow_refuted.

(** ** The coefficients used are the literals of the source, correctly rounded:
    to a double and then to a float. *)
Theorem C57_literals q : bpow radix2 (-46) <= Rabs (Q2R q) <= 1 ->
  is_finite (f32_literal q) = true /\
  B2R (f32_literal q) = round radix2 (FLT_exp (-149) 24) ZnearestE (round radix2 (FLT_exp (-1074) 53) ZnearestE (Q2R q)).
Proof. exact (literal_both q). Qed.
Print Assumptions C57_literals.
(** a coefficient of DB4, wavelet.cc:173 *)
Example C57_literal_case : bpow radix2 (-46) <= Rabs (Q2R (-1978751311791 # 100000000000000)) <= 1.
Proof.
  unfold Q2R. cbn [Qnum Qden]. rewrite Rabs_left by lra. split; [|lra].
  apply Rle_trans with (bpow radix2 (-20)); [apply bpow_le; lia|]. change (bpow radix2 (-20)) with (/ 1048576). lra.
Qed.
