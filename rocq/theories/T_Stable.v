(** * T_Stable: properties C86 (Compose of coefficients that were moved:
    denoised, compressed with loss, edited), C87 (Decompose after Compose) and
    C88 (Decompose of signals that are close). *)
Require Import List Bool Arith ZArith Reals Lra Lia.
Require Import Verif.M_Base Verif.M_Params Verif.M_Buffer Verif.M_Real Verif.M_Denoise.
Require Import Verif.S_Params Verif.S_Buffer Verif.S_Exact Verif.S_Round Verif.S_Stable Verif.S_Denoise.
Require Import Verif.P_Api Verif.P_Denoise Verif.P_Round3 Verif.P_Stable2 Verif.P_Dual2 Verif.P_Dual3.
Import ListNotations.
Open Scope R_scope.

(** ** C86: any channels of the right layout in place of the decomposed ones.
    The composed signal is as far from the original as the coefficients are
    from the decomposition of the original, times [step_gain] per step, plus
    what an undisturbed round trip may lose (C57). *)
Theorem C86_any_rounding u eta (A : Arith R) p (b : buffer R) data (chs : list (list (mat R))) :
  rounding u eta A -> 0 <= u -> 0 <= eta ->
  accepted p -> @reachable R A p b ->
  (1 <= signum p)%Z -> Z.of_nat (length data) = signum p -> Forall (shaped p) data ->
  length chs = length data -> Forall (has_layout p) chs ->
  exists b0 out, @decompose R A b data null_denoiser = Ok (true, b0) /\
    @compose R A (Buffer p chs) 0 = Ok (true, out) /\ length out = length data /\
    forall c m ch0 ch o, nth_error data c = Some m -> nth_error (bdec b0) c = Some ch0 -> nth_error chs c = Some ch ->
      nth_error out c = Some o ->
      sized (drows p) (dcols p) o /\
      error p o m <= float_rel u p * sqrt (padded_energy p m) + underflow u eta p
        + step_gain u p ^ nsteps p * sqrt (distance2 ch0 ch).
Proof. exact (fun HR Hu He HA => moved_compose u eta A HR Hu He p HA b data chs). Qed.
Print Assumptions C86_any_rounding.

(** any denoiser given to Decompose *)
Theorem C86_denoiser u eta (A : Arith R) p (b : buffer R) data den :
  rounding u eta A -> 0 <= u -> 0 <= eta ->
  accepted p -> @reachable R A p b -> keeps_shape den ->
  (1 <= signum p)%Z -> Z.of_nat (length data) = signum p -> Forall (shaped p) data ->
  exists b0 b1 out, @decompose R A b data null_denoiser = Ok (true, b0) /\
    @decompose R A b data den = Ok (true, b1) /\
    @compose R A b1 0 = Ok (true, out) /\ length out = length data /\
    forall c m ch0 ch1 o, nth_error data c = Some m -> nth_error (bdec b0) c = Some ch0 -> nth_error (bdec b1) c = Some ch1 ->
      nth_error out c = Some o ->
      sized (drows p) (dcols p) o /\
      error p o m <= float_rel u p * sqrt (padded_energy p m) + underflow u eta p
        + step_gain u p ^ nsteps p * sqrt (distance2 ch0 ch1).
Proof. exact (fun HR Hu He HA => denoised_compose u eta A HR Hu He p HA b data den). Qed.
Print Assumptions C86_denoiser.

(** Exact arithmetic and the threshold denoiser: [changes] counts the
    coefficients it zeroed. *)
Theorem C86_threshold p (b : buffer R) data ta tb T :
  accepted p -> reachable p b -> 0 <= T -> (forall s, (s < nsteps p)%nat -> ta * INR s + tb <= T) ->
  (1 <= signum p)%Z -> Z.of_nat (length data) = signum p -> Forall (shaped p) data ->
  exists b0 b1 out, decompose b data null_denoiser = Ok (true, b0) /\
    decompose b data (threshold_denoiser ta tb) = Ok (true, b1) /\
    compose b1 0 = Ok (true, out) /\ length out = length data /\
    forall c m ch0 ch1 o, nth_error data c = Some m -> nth_error (bdec b0) c = Some ch0 -> nth_error (bdec b1) c = Some ch1 ->
      nth_error out c = Some o ->
      sized (drows p) (dcols p) o /\
      error p o m <= rel_err p * sqrt (padded_energy p m) + gain_exact p * (T * sqrt (INR (changes ch0 ch1))).
Proof. exact (threshold_error p b data ta tb T). Qed.
Print Assumptions C86_threshold.

(** The constants for exact arithmetic: nothing is lost, nothing amplified
    with DB1, hardly anything with the others. *)
Theorem C86_constants p : accepted p ->
  (wtype p = 1%Z -> rel_err p = 0 /\ gain_exact p = 1) /\
  (forall n, step_gain 0 p ^ n = (1 + Q2R (filter_defect (wtype p))) ^ (passes p * n)) /\
  float_rel 0 p = rel_err p /\ underflow 0 0 p = 0 /\ rounding 0 0 exactR.
Proof.
  intros _. repeat split; auto using rel_err_db1, gain_exact_db1, step_gain_0, float_rel_0, underflow_0; apply exact_rounding.
Qed.
Print Assumptions C86_constants.

(** ** C87: Decompose gives back the coefficients Compose was given, if the
    sides are multiples of 2^steps, i.e. nothing is padded. *)
Theorem C87_any_rounding u eta (A : Arith R) p (b : buffer R) (chs : list (list (mat R))) :
  rounding u eta A -> 0 <= u -> 0 <= eta ->
  accepted p -> level_rows p 0 = drows p -> level_cols p 0 = dcols p -> @reachable R A p b ->
  (1 <= signum p)%Z -> Z.of_nat (length chs) = signum p -> Forall (has_layout p) chs ->
  exists out b', @compose R A (Buffer p chs) 0 = Ok (true, out) /\
    @decompose R A b out null_denoiser = Ok (true, b') /\ length (bdec b') = length chs /\
    forall c ch ch', nth_error chs c = Some ch -> nth_error (bdec b') c = Some ch' ->
      has_layout p ch' /\
      sqrt (distance2 ch' ch) <= float_rel u p * sqrt (channel_energy ch) + underflow u eta p.
Proof. exact (fun HR Hu He HA Er Ec => compose_decompose u eta A HR Hu He p HA Er Ec b chs). Qed.
Print Assumptions C87_any_rounding.

(** exactly, with DB1 *)
Theorem C87_exact p (b : buffer R) (chs : list (list (mat R))) :
  accepted p -> level_rows p 0 = drows p -> level_cols p 0 = dcols p -> wtype p = 1%Z -> reachable p b ->
  (1 <= signum p)%Z -> Z.of_nat (length chs) = signum p -> Forall (has_layout p) chs ->
  exists out, compose (Buffer p chs) 0 = Ok (true, out) /\ decompose b out null_denoiser = Ok (true, Buffer p chs).
Proof. exact (fun HA => compose_decompose_db1 p HA b chs). Qed.
Print Assumptions C87_exact.

(** With padding it does not: three samples, one step of DB1. *)
Definition ex3 : params := Params [3]%Z 1 1 1.
Definition ex3_channel : list (mat R) := [Mat 2 1 [0; 1]; Mat 2 1 [0; 0]].
Theorem C87_padded_refuted : exists p (b b' : buffer R) ch out,
  accepted p /\ reachable p b /\ has_layout p ch /\ signum p = 1%Z /\ wtype p = 1%Z /\
  compose (Buffer p [ch]) 0 = Ok (true, out) /\ decompose b out null_denoiser = Ok (true, b') /\
  bdec b' <> [ch].
Proof.
  exists ex3. do 2 eexists. exists ex3_channel. eexists.
  split. { unfold accepted, ex3, params_rep, legal, u64, i32; cbn [shape signum steps wtype length].
           repeat split; auto; repeat constructor; lia. }
  split; [apply reach_new; cbv -[Rplus Rmult Ropp Rinv sqrt IZR Q2R Rdiv Rminus]; reflexivity|].
  split.
  { split; [reflexivity|]. split.
    - intros [|s] [|i] m Hs Hi; cbv in Hs, Hi; try lia. intros E. inversion E; subst m. repeat split.
    - intros m E. inversion E; subst m. repeat split. }
  split; [reflexivity|]. split; [reflexivity|].
  split; [cbv -[Rplus Rmult Ropp Rinv sqrt IZR Q2R Rdiv Rminus]; reflexivity|].
  split; [cbv -[Rplus Rmult Ropp Rinv sqrt IZR Q2R Rdiv Rminus]; reflexivity|].
  cbn [bdec]. unfold ex3_channel. intros E. injection E. intros. lra.
Qed.
Print Assumptions C87_padded_refuted.

(** ** C88: close signals have close decompositions; both ways and exactly
    with DB1 when nothing is padded. *)
Theorem C88_decompose p (b1 b2 : buffer R) data data' :
  accepted p -> reachable p b1 -> reachable p b2 ->
  (1 <= signum p)%Z -> Z.of_nat (length data) = signum p -> Z.of_nat (length data') = signum p ->
  Forall (shaped p) data -> Forall (shaped p) data' ->
  exists b1' b2', decompose b1 data null_denoiser = Ok (true, b1') /\ decompose b2 data' null_denoiser = Ok (true, b2') /\
    forall c m m' ch ch', nth_error data c = Some m -> nth_error data' c = Some m' ->
      nth_error (bdec b1') c = Some ch -> nth_error (bdec b2') c = Some ch' ->
      sqrt (distance2 ch ch') <= gain_exact p * padded_error p m' m.
Proof. exact (fun HA => decompose_stable p HA b1 b2 data data'). Qed.
Print Assumptions C88_decompose.

Theorem C88_isometry p (b : buffer R) data (chs : list (list (mat R))) :
  accepted p -> level_rows p 0 = drows p -> level_cols p 0 = dcols p -> wtype p = 1%Z -> reachable p b ->
  (1 <= signum p)%Z -> Z.of_nat (length data) = signum p -> Forall (shaped p) data ->
  length chs = length data -> Forall (has_layout p) chs ->
  exists b0 out, decompose b data null_denoiser = Ok (true, b0) /\
    compose (Buffer p chs) 0 = Ok (true, out) /\ length out = length data /\
    forall c m ch0 ch o, nth_error data c = Some m -> nth_error (bdec b0) c = Some ch0 -> nth_error chs c = Some ch ->
      nth_error out c = Some o -> error p o m = sqrt (distance2 ch0 ch).
Proof. exact (isometry_api p b data chs). Qed.
Print Assumptions C88_isometry.

(** ** cases: an 8 x 4 image with two channels and two steps of DB1; 8 x 6 and one step of DB2 *)
Definition ex8 : params := Params [8; 4]%Z 2 2 1.
Definition ex9 : params := Params [8; 6]%Z 2 1 2.
Example ex8_accepted : accepted ex8.
Proof.
  unfold accepted, ex8, params_rep, legal, u64, i32; cbn [shape signum steps wtype length].
  repeat split; auto; try lia; repeat constructor; lia.
Qed.
Example ex9_accepted : accepted ex9.
Proof.
  unfold accepted, ex9, params_rep, legal, u64, i32; cbn [shape signum steps wtype length].
  repeat split; auto; try lia; repeat constructor; lia.
Qed.
Example ex8_whole : level_rows ex8 0 = drows ex8 /\ level_cols ex8 0 = dcols ex8 /\
  level_rows ex9 0 = drows ex9 /\ level_cols ex9 0 = dcols ex9.
Proof. repeat split. Qed.
Example ex8_reachable : exists b : buffer R, reachable ex8 b.
Proof. eexists. apply reach_new. cbv -[Rplus Rmult Ropp Rinv sqrt IZR Q2R Rdiv Rminus]. reflexivity. Qed.
Example ex8_shaped (f : nat -> R) : Forall (shaped ex8) (repeat (Mat 4 8 (map f (seq 0 32))) 2).
Proof. repeat constructor. Qed.
(** two steps: subbands 2 x 4 three times, 1 x 2 three times, approximation 1 x 2 *)
Definition ex8_channel (f : nat -> R) : list (mat R) :=
  repeat (Mat 2 4 (map f (seq 0 8))) 3 ++ repeat (Mat 1 2 [f 8%nat; f 9%nat]) 4.
Example ex8_layout f : Forall (has_layout ex8) (repeat (ex8_channel f) 2).
Proof.
  assert (H : has_layout ex8 (ex8_channel f)).
  { split; [reflexivity|]. split.
    - intros [|[|s]] [|[|[|i]]] m Hs Hi; cbv in Hs, Hi; try lia; intros E; inversion E; subst m; repeat split.
    - intros m E; inversion E; subst m; repeat split. }
  cbn [repeat]. constructor; [exact H|constructor; [exact H|constructor]].
Qed.
Example changes_case : changes [Mat 2 1 [5; 1]; Mat 2 1 [7; 8]] [Mat 2 1 [5; 0]; Mat 2 1 [7; 8]] = 1%nat /\
  distance2 [Mat 2 1 [5; 1]; Mat 2 1 [7; 8]] [Mat 2 1 [5; 0]; Mat 2 1 [7; 8]] = 1.
Proof.
  cbn [changes changes1 distance2 gap elts].
  repeat (match goal with |- context [Req_EM_T ?x ?y] => destruct (Req_EM_T x y); try lra end). split; [reflexivity|ring].
Qed.
