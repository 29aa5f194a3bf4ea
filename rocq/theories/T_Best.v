(** * T_Best: property C127 (the denoisers choose the best approximation). *)
Require Import List Bool Arith ZArith Reals Lra Lia.
Require Import Verif.M_Base Verif.M_Params Verif.M_Buffer Verif.M_Real Verif.M_Denoise.
Require Import Verif.S_Params Verif.S_Buffer Verif.S_Exact Verif.S_Stable Verif.S_Denoise Verif.S_Best.
Require Import Verif.P_Params Verif.P_Api Verif.P_Denoise Verif.P_Round3 Verif.P_Best.
Import ListNotations.
Open Scope R_scope.
Local Existing Instance exactR.

(** ** one subband *)
(** SimpleDenoiseAlgorithm(level): of all arrays of the same size with at most
    k nonzero values (k as the level says), none is nearer to the data than
    the result, whatever std::nth_element does within its contract. *)
Theorem C127_simple_1d ne level (data : list R) : nth_element_contract ne -> 0 <= level <= 1 ->
  exists out k, simple1 ne level data = Ok out /\ survivors level (length data) k /\
    length out = length data /\ (nonzeros out <= k)%nat /\
    forall y, length y = length data -> (nonzeros y <= k)%nat -> gap data out <= gap data y.
Proof. exact (simple_best1 ne level data). Qed.
Print Assumptions C127_simple_1d.
Theorem C127_simple_2d ne level (data : mat R) : mwf data -> nth_element_contract ne -> 0 <= level <= 1 ->
  exists out k, simple2 ne level data = Ok out /\ survivors level (length (elts data)) k /\
    sized (rows data) (cols data) out /\ (nonzeros (elts out) <= k)%nat /\
    forall y, length y = length (elts data) -> (nonzeros y <= k)%nat -> gap (elts data) (elts out) <= gap (elts data) y.
Proof. exact (simple_best2 ne level data). Qed.
Print Assumptions C127_simple_2d.

(** Denoising what was denoised, at the same level, changes nothing. *)
Theorem C127_again ne1 ne2 level : nth_element_contract ne1 -> nth_element_contract ne2 -> 0 <= level <= 1 ->
  (forall data out, simple1 ne1 level data = Ok out -> simple1 ne1 level out = Ok out) /\
  (forall data out, mwf data -> simple2 ne2 level data = Ok out -> simple2 ne2 level out = Ok out).
Proof.
  intros H1 H2 Hl. split; intros.
  - exact (simple_again1 ne1 level data out H1 Hl H).
  - exact (simple_again2 ne2 level data out H H2 Hl H0).
Qed.
Print Assumptions C127_again.

(** ** signals: DB1, sides that are multiples of 2^steps *)
(** The signal composed after Decompose with the simple denoiser is nearest to
    the original among all signals whose detail subbands have at most as many
    nonzero values. *)
Theorem C127_simple_signal p ne1 ne2 level (b : buffer R) data :
  accepted p -> level_rows p 0 = drows p -> level_cols p 0 = dcols p -> wtype p = 1%Z ->
  nth_element_contract ne1 -> nth_element_contract ne2 -> 0 <= level <= 1 ->
  reachable p b -> (1 <= signum p)%Z -> Z.of_nat (length data) = signum p -> Forall (shaped p) data ->
  exists b1 out, decompose b data (simple_denoiser ne1 ne2 level) = Ok (true, b1) /\ compose b1 0 = Ok (true, out) /\
    length out = length data /\ Forall (as_sparse level p) (bdec b1) /\
    forall data2 b2, Z.of_nat (length data2) = signum p -> Forall (shaped p) data2 ->
      decompose b data2 null_denoiser = Ok (true, b2) -> Forall (as_sparse level p) (bdec b2) ->
      forall c m o m2, nth_error data c = Some m -> nth_error out c = Some o -> nth_error data2 c = Some m2 ->
        error p o m <= error p m2 m.
Proof. exact (fun HA Er Ec Et => simple_best_signal p HA Er Ec Et ne1 ne2 level b data). Qed.
Print Assumptions C127_simple_signal.

(** The threshold denoiser: if a nonzero detail value of step s costs
    (a s + b)^2, no signal has a smaller sum of squared error and cost. *)
Theorem C127_threshold_signal p ta tb (b : buffer R) data :
  accepted p -> level_rows p 0 = drows p -> level_cols p 0 = dcols p -> wtype p = 1%Z ->
  (forall s, (s < nsteps p)%nat -> 0 <= ta * INR s + tb) ->
  reachable p b -> (1 <= signum p)%Z -> Z.of_nat (length data) = signum p -> Forall (shaped p) data ->
  exists b1 out, decompose b data (threshold_denoiser ta tb) = Ok (true, b1) /\ compose b1 0 = Ok (true, out) /\
    length out = length data /\
    forall data2 b2, Z.of_nat (length data2) = signum p -> Forall (shaped p) data2 ->
      decompose b data2 null_denoiser = Ok (true, b2) ->
      forall c m o m2 ch1 ch2, nth_error data c = Some m -> nth_error out c = Some o -> nth_error data2 c = Some m2 ->
        nth_error (bdec b1) c = Some ch1 -> nth_error (bdec b2) c = Some ch2 ->
        error p o m * error p o m + detail_cost ta tb p ch1 <= error p m2 m * error p m2 m + detail_cost ta tb p ch2.
Proof. exact (fun HA Er Ec Et => threshold_best_signal p HA Er Ec Et ta tb b data). Qed.
Print Assumptions C127_threshold_signal.

(** ** cases: a contract-keeping nth_element, and an 8 x 4 picture with two
    channels and two steps of DB1; half of 12 values are 6 *)
Definition ex84 : params := Params [8; 4]%Z 2 2 1.
Example C127_case : nth_element_contract (@sort_desc nat) /\ nth_element_contract (@sort_desc (nat * nat)) /\
  survivors (1 / 2) 12 6 /\
  accepted ex84 /\ level_rows ex84 0 = drows ex84 /\ level_cols ex84 0 = dcols ex84 /\ wtype ex84 = 1%Z /\
  (exists b : buffer R, reachable ex84 b) /\ (1 <= signum ex84)%Z /\
  Forall (shaped ex84) [Mat 4 8 (map INR (seq 0 32)); Mat 4 8 (repeat 1 32)] /\
  (forall s, (s < nsteps ex84)%nat -> 0 <= 2 * INR s + 1) /\
  nonzeros [3; 0; -1; 0] = 2%nat.
Proof.
  assert (HA : accepted ex84).
  { unfold accepted, params_rep, legal, u64, i32, ex84; cbn [shape signum steps wtype length].
    repeat split; auto; try lia; repeat constructor; lia. }
  split; [apply sort_contract|]. split; [apply sort_contract|]. split; [exists 6%nat; split; [simpl; lra|reflexivity]|].
  split; [exact HA|]. split; [reflexivity|]. split; [reflexivity|]. split; [reflexivity|].
  split; [eexists; apply reach_new; apply new_buffer_legal; [apply HA|cbn; lia|apply HA]|].
  split; [cbn; lia|]. split; [repeat constructor|].
  split; [intros s _; pose proof (pos_INR s); lra|].
  cbn [nonzeros]. repeat (match goal with |- context [Req_EM_T ?a ?b] => destruct (Req_EM_T a b); try (exfalso; lra) end). reflexivity.
Qed.
