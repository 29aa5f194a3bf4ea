(** * T_Daub: properties C109 (what the filters are), C110 (details of smooth
    stretches) and C111 (how accurate one coefficient is). *)
Require Import List Bool Arith ZArith QArith Qreals Reals Lra Lia.
Require Import Flocq.Core.Core Flocq.IEEE754.BinarySingleNaN.
Require Import Verif.M_Base Verif.M_Params Verif.M_Wavelet Verif.M_Buffer Verif.M_Real Verif.M_Float Verif.M_Binary32.
Require Import Verif.S_Params Verif.S_Buffer Verif.S_Exact Verif.S_Round Verif.S_Lossy Verif.S_Daub.
Require Import Verif.P_Wavelet Verif.P_Paths Verif.P_Api Verif.P_Daub2 Verif.P_Smooth Verif.P_Float Verif.P_Binary32 Verif.P_Bin2 Verif.P_Stable2 Verif.P_Near Verif.P_Near2.
Require Verif.P_Params Verif.T_Lossy Verif.T_Peak.
Import ListNotations.
Open Scope R_scope.

Local Ltac consts :=
  replace (/ 2 ^ 24) with u32 by (unfold u32; rewrite (pow_IZR 2 24); reflexivity);
  replace (/ 2 ^ 150) with eta32 by (unfold eta32; rewrite (pow_IZR 2 150); reflexivity).

(** ** C109: the filters of type t are those of an orthonormal wavelet with t
    vanishing moments, up to the accuracy the tables are printed with; the
    high-pass one is its mirror with alternating signs, the other two are
    these two reversed. *)
Theorem C109_filters t : (1 <= t <= 10)%Z ->
  exists h lo hi, daubechies (Z.to_nat t) h /\ @filters R exactR t = Ok (rev lo, rev hi, lo, hi) /\
    length lo = (2 * Z.to_nat t)%nat /\ length hi = (2 * Z.to_nat t)%nat /\
    forall k, (k < 2 * Z.to_nat t)%nat ->
      Rabs (nth k lo 0 - h k) <= printed_accuracy t /\
      Rabs (nth k hi 0 - (-1) ^ k * h (2 * Z.to_nat t - 1 - k)%nat) <= printed_accuracy t.
Proof.
  intro Ht. destruct (near_daubechies t Ht) as (h & D & H). exists h, (lo_r t), (hi_r t).
  destruct (P_Round.lens_t t Ht) as [L1 L2]. repeat (split; auto). apply filters_ok, Ht.
Qed.
Print Assumptions C109_filters.
(** that is at most 2.58e-11, and nothing for DB1, where h is 1/sqrt 2, 1/sqrt 2 *)
Theorem C109_accuracy t : (1 <= t <= 10)%Z -> 0 <= printed_accuracy t <= 258 / 10 ^ 13 /\ printed_accuracy 1 = 0.
Proof.
  intro Ht. assert (H : (t = 1 \/ t = 2 \/ t = 3 \/ t = 4 \/ t = 5 \/ t = 6 \/ t = 7 \/ t = 8 \/ t = 9 \/ t = 10)%Z) by lia.
  unfold printed_accuracy. repeat (destruct H as [->|H]; [split; [split; lra|lra]|]). subst. split; [split; lra|lra].
Qed.
Print Assumptions C109_accuracy.
Example C109_case : daubechies 1 (fun _ => / sqrt 2).
Proof.
  assert (S : sqrt 2 * sqrt 2 = 2) by (apply sqrt_sqrt; lra). assert (P : 0 < sqrt 2) by (apply sqrt_lt_R0; lra).
  assert (I : / sqrt 2 * / sqrt 2 = / 2) by (rewrite <- Rinv_mult; f_equal; exact S).
  split; [|split].
  - intros m Hm. assert (m = 0%nat) by lia. subst m. simpl. rewrite I. lra.
  - intros c Hc. destruct c as [|a [|b c]]; simpl in Hc |- *; [ring|ring|lia].
  - simpl. replace (0 + / sqrt 2 + / sqrt 2) with (2 * / sqrt 2) by ring. apply (Rmult_eq_reg_r (sqrt 2)); [|lra].
    rewrite Rmult_assoc, Rinv_l by lra. lra.
Qed.

(** ** C110: where the columns (rows) of the padded signal are polynomials of
    degree less than the wavelet type, over the samples a detail coefficient
    is computed from, the coefficient is 0 up to the accuracy of the tables:
    subband 0 of a step, and 2 of a 2D one, filter the columns with the
    high-pass filter, subbands 1 and 2 the rows. *)
Theorem C110_details p (b : buffer R) data :
  accepted p -> @reachable R exactR p b ->
  (1 <= signum p)%Z -> Z.of_nat (length data) = signum p -> Forall (shaped p) data ->
  exists b', @decompose R exactR b data null_denoiser = Ok (true, b') /\
  forall c m ch s d bb i j B, nth_error data c = Some m -> nth_error (bdec b') c = Some ch -> (s < nsteps p)%nat -> (bb < bands p)%nat ->
    nth_error ch (s * bands p + bb) = Some d -> (i < level_rows p (S s))%nat -> (j < level_cols p (S s))%nat ->
    not_wrapped p (S s) i j -> 0 <= B -> bounded_there p m (S s) i j B ->
    polynomial_columns p m (S s) i j /\ bb <> 1%nat \/ polynomial_rows p m (S s) i j /\ bb <> 0%nat ->
    Rabs (at_ d i j) <= leftover p (S s) * B.
Proof. exact (fun HA Hr Hs HL HS => smooth_details p HA b data Hr Hs HL HS). Qed.
Print Assumptions C110_details.
(** in single precision: up to rounding errors (see C111) *)
Theorem C110_binary32 p (b : buffer f32) data B :
  accepted p -> reachable p b ->
  (1 <= signum p)%Z -> Z.of_nat (length data) = signum p -> Forall (shaped p) data ->
  0 <= B <= 2 ^ 46 -> Forall (fun m => Forall (fun x : f32 => is_finite x = true /\ Rabs (B2R x) <= B) (elts m)) data ->
  exists b', decompose b data null_denoiser = Ok (true, b') /\
  forall c m ch s d bb i j, nth_error data c = Some m -> nth_error (bdec b') c = Some ch -> (s < nsteps p)%nat -> (bb < bands p)%nat ->
    nth_error ch (s * bands p + bb) = Some d -> (i < level_rows p (S s))%nat -> (j < level_cols p (S s))%nat ->
    not_wrapped p (S s) i j ->
    polynomial_columns p (values m) (S s) i j /\ bb <> 1%nat \/ polynomial_rows p (values m) (S s) i j /\ bb <> 0%nat ->
    all_finite d /\
    Rabs (at_ (values d) i j) <= leftover p (S s) * B +
      (sqrt 2 * Q2R (coefficient_sum (wtype p))) ^ (passes p * S s) * (INR (passes p * S s) * INR (2 * taps p + 4) * (6 / 10 ^ 8) * B + / 2 ^ 135).
Proof.
  intros HA Hr Hs HL HS HB HD. destruct (smooth32 p HA b data B Hr Hs HL HS HB HD) as (b' & E & H). exists b'. split; auto.
  intros c m ch s d bb i j Hm Hc Hs' Hb Hd Hi Hj NW PP. destruct (H c m ch s d bb i j Hm Hc Hs' Hb Hd Hi Hj NW PP) as [F G]. split; [exact F|].
  assert (N : (passes p * S s <= passes p * nsteps p)%nat) by (apply Nat.mul_le_mono_l; lia).
  pose proof (off_bound p HA (passes p * S s) B (proj1 HB) N). lra.
Qed.
Print Assumptions C110_binary32.
(** the constant: at most 4.7e-10 for the details of the first step of a 1D
    signal; exactly 0 for DB1 *)
Theorem C110_leftover p s : (1 <= wtype p <= 10)%Z ->
  0 <= leftover p s <= 47 / 10 ^ 11 * (sqrt 2 * Q2R (coefficient_sum (wtype p))) ^ (passes p * s - 1) /\
  (wtype p = 1%Z -> leftover p s = 0).
Proof.
  intro Ht. unfold leftover, taps.
  assert (P : 0 <= (sqrt 2 * Q2R (coefficient_sum (wtype p))) ^ (passes p * s - 1)).
  { apply pow_le, Rmult_le_pos; [apply sqrt_pos|apply P_Peak3.Q2R_sum_pos]. }
  assert (Q : 0 <= INR (2 * Z.to_nat (wtype p)) * printed_accuracy (wtype p) <= 47 / 10 ^ 11).
  { assert (H : (wtype p = 1 \/ wtype p = 2 \/ wtype p = 3 \/ wtype p = 4 \/ wtype p = 5 \/ wtype p = 6 \/ wtype p = 7 \/ wtype p = 8 \/ wtype p = 9 \/ wtype p = 10)%Z) by lia.
    unfold printed_accuracy. repeat (destruct H as [->|H]; [simpl; lra|]). rewrite H. simpl; lra. }
  split; [nra|]. intros ->. unfold printed_accuracy. unfold Rdiv. rewrite !Rmult_0_l, Rmult_0_r, Rmult_0_l. reflexivity.
Qed.
Print Assumptions C110_leftover.
(** a ramp: 16 samples 3 i + 1, the fourth detail coefficient of DB2 *)
Definition ramp16 : mat R := Mat 16 1 (map (fun k => IZR (3 * Z.of_nat k + 1)) (seq 0 16)).
Definition p16 : params := Params [16]%Z 1 1 2.
Example C110_case : accepted p16 /\ (exists b : buffer R, @reachable R exactR p16 b) /\ shaped p16 ramp16 /\
  not_wrapped p16 1 3 0 /\ polynomial_columns p16 ramp16 1 3 0 /\ bounded_there p16 ramp16 1 3 0 28.
Proof.
  split.
  { unfold accepted, params_rep, legal, u64, i32, p16; cbn [shape signum steps wtype length]. repeat split; auto; repeat constructor; lia. }
  split; [eexists; apply reach_new; cbv -[Rplus Rmult Ropp Rinv sqrt IZR Q2R Rdiv Rminus]; reflexivity|].
  split; [repeat split; reflexivity|].
  assert (V : forall r, (6 <= r <= 9)%nat -> padded_at p16 ramp16 r 0 = 1 + INR r * 3).
  { intros r Hr. assert (C : (r = 6 \/ r = 7 \/ r = 8 \/ r = 9)%nat) by lia.
    destruct C as [->|[->|[->| ->]]]; cbv -[Rplus Rmult IZR INR]; simpl INR; lra. }
  assert (U : forall r, row_used p16 1 3 r -> (6 <= r <= 9)%nat) by (intros r Hr; exact Hr).
  split; [split; [vm_compute; lia|left; reflexivity]|]. split.
  - intros q Hq. change (q = 0%nat) in Hq. subst q. exists [1; 3]. split; [cbn; lia|]. intros r Hr.
    rewrite V by (apply U, Hr). cbn [peval]. ring.
  - intros r q Hr Hq. change (q = 0%nat) in Hq. subst q. apply U in Hr. rewrite (V r Hr).
    assert (0 <= INR r <= 9) by (split; [apply pos_INR|replace 9 with (INR 9) by (simpl; lra); apply le_INR; lia]).
    rewrite Rabs_pos_eq; lra.
Qed.

(** ** C111: every stored coefficient is within a bound of the one exact
    arithmetic stores, which depends on the number of passes its subband went
    through and the magnitude of the samples, not on the size of the signal
    (C89 bounds the norm of all errors together). *)
Theorem C111_any_rounding u eta (A : Arith R) p (b be : buffer R) data B :
  rounding u eta A -> 0 <= u -> 0 <= eta -> accepted p -> @reachable R A p b -> @reachable R exactR p be ->
  (1 <= signum p)%Z -> Z.of_nat (length data) = signum p -> Forall (shaped p) data ->
  0 <= B -> Forall (fun m => Forall (fun x => Rabs x <= B) (elts m)) data ->
  exists b' be', @decompose R A b data null_denoiser = Ok (true, b') /\ @decompose R exactR be data null_denoiser = Ok (true, be') /\
    forall c ch che k d de, nth_error (bdec b') c = Some ch -> nth_error (bdec be') c = Some che ->
      nth_error ch k = Some d -> nth_error che k = Some de ->
      forall i j, (i < level_rows p (depth p k))%nat -> (j < level_cols p (depth p k))%nat ->
        Rabs (at_ d i j - at_ de i j) <= peak u eta p (passes p * depth p k) B - peak 0 0 p (passes p * depth p k) B.
Proof.
  intros HR Hu He HA Hr Hre Hs HL HS HB HD.
  destruct (pointwise u eta A HR Hu He p HA b be data B Hr Hre Hs HL HS HB HD) as (b' & be' & E & Ee & H). exists b', be'. do 2 (split; auto).
  intros c ch che k d de H1 H2 H3 H4 i j Hi Hj. eapply Rle_trans; [apply (H c ch che k d de H1 H2 H3 H4 i j Hi Hj)|].
  unfold off. apply Req_le. f_equal. f_equal. unfold peak, peak_gain, peak_under. rewrite !Rplus_0_r, !pow1, !Rmult_1_r, !Rmult_0_r, Rplus_0_r. reflexivity.
Qed.
Print Assumptions C111_any_rounding.
Theorem C111_binary32 p (b : buffer f32) (be : buffer R) data B :
  accepted p -> reachable p b -> reachable p be ->
  (1 <= signum p)%Z -> Z.of_nat (length data) = signum p -> Forall (shaped p) data ->
  0 <= B <= 2 ^ 46 -> Forall (fun m => Forall (fun x : f32 => is_finite x = true /\ Rabs (B2R x) <= B) (elts m)) data ->
  exists b' be', decompose b data null_denoiser = Ok (true, b') /\ decompose be (map values data) null_denoiser = Ok (true, be') /\
    forall c ch che k d de, nth_error (bdec b') c = Some ch -> nth_error (bdec be') c = Some che ->
      nth_error ch k = Some d -> nth_error che k = Some de -> all_finite d /\
      forall i j, (i < level_rows p (depth p k))%nat -> (j < level_cols p (depth p k))%nat ->
        let n := (passes p * depth p k)%nat in
        Rabs (at_ (values d) i j - at_ de i j) <=
          (sqrt 2 * Q2R (coefficient_sum (wtype p))) ^ n * (INR n * INR (2 * taps p + 4) * (6 / 10 ^ 8) * B + / 2 ^ 135).
Proof.
  intros HA Hr Hre Hs HL HS HB HD.
  destruct (pointwise32 p HA b be data B Hr Hre Hs HL HS HB HD) as (b' & be' & E & Ee & H). exists b', be'. do 2 (split; auto).
  intros c ch che k d de H1 H2 H3 H4. destruct (H c ch che k d de H1 H2 H3 H4) as [F G]. split; [exact F|]. intros i j Hi Hj n.
  eapply Rle_trans; [apply (G i j Hi Hj)|]. apply (off_bound p HA); [apply HB|]. apply Nat.mul_le_mono_l. unfold depth. lia.
Qed.
Print Assumptions C111_binary32.
(** exact arithmetic is one of the rounded ones, and its bound is 0 *)
Example C111_case : rounding 0 0 exactR /\ forall p n B, peak 0 0 p n B - peak 0 0 p n B = 0.
Proof. split; [exact exact_rounding|intros; ring]. Qed.
(** floats: the ramp of C96 *)
Example C111_case_binary32 : accepted T_Lossy.small_p /\ (exists b : buffer f32, reachable T_Lossy.small_p b) /\
  (exists b : buffer R, reachable T_Lossy.small_p b) /\
  Forall (shaped T_Lossy.small_p) [T_Lossy.ramp; T_Lossy.ramp] /\ (0 <= 221 <= 2 ^ 46) /\
  Forall (fun m => Forall (fun x : f32 => is_finite x = true /\ Rabs (B2R x) <= 221) (elts m)) [T_Lossy.ramp; T_Lossy.ramp].
Proof.
  destruct T_Peak.C97_case as (HA & HB & HS & HF & _). split; [exact HA|]. split; [exact HB|].
  split; [eexists; apply reach_new; apply P_Params.new_buffer_legal; [apply HA|cbn; lia|apply HA]|].
  split; [exact HS|]. split; [lra|exact HF].
Qed.
