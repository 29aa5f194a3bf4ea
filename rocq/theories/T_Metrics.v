(** * T_Metrics: properties C32, C33, C34 (exact arithmetic). *)
Require Import List Bool Arith ZArith Reals Lra Lia.
Require Import Verif.M_Base Verif.M_Params Verif.M_Buffer Verif.M_Real Verif.M_Metrics.
Require Import Verif.S_Params Verif.S_Buffer Verif.S_Exact Verif.S_Metrics.
Require Import Verif.P_Exact Verif.P_Api2 Verif.P_Metrics Verif.P_Range.
Import ListNotations.
Open Scope R_scope.
Local Existing Instance exactR.

(** ** C32: Distance *)
(** The value: mean over the declared samples of the squared subband
    differences. *)
Theorem C32_value b1 b2 : comparable (bpar b1) (bpar b2) -> small_shape (bpar b1) -> same_sizes b1 b2 ->
  distance b1 b2 = Ok (Num (sum_sq_diff (all_values b1) (all_values b2) / IZR (samples (bpar b1)))).
Proof. exact (distance_value b1 b2 (bpar b1) eq_refl). Qed.
Print Assumptions C32_value.

(** For any three decomposed buffers of the same parameters (whatever the
    denoisers): symmetric, non-negative, zero exactly for equal subbands, and
    the root satisfies the triangle inequality. *)
Theorem C32_metric p b1 b2 b3 d1 d2 d3 den1 den2 den3 b1' b2' b3' :
  accepted p -> small_shape p -> reachable p b1 -> reachable p b2 -> reachable p b3 ->
  keeps_shape den1 -> keeps_shape den2 -> keeps_shape den3 ->
  Z.of_nat (length d1) = signum p -> Z.of_nat (length d2) = signum p -> Z.of_nat (length d3) = signum p ->
  Forall (shaped p) d1 -> Forall (shaped p) d2 -> Forall (shaped p) d3 ->
  decompose b1 d1 den1 = Ok (true, b1') -> decompose b2 d2 den2 = Ok (true, b2') -> decompose b3 d3 den3 = Ok (true, b3') ->
  exists d12 d23 d13, distance b1' b2' = Ok (Num d12) /\ distance b2' b1' = Ok (Num d12) /\
    distance b2' b3' = Ok (Num d23) /\ distance b1' b3' = Ok (Num d13) /\
    0 <= d12 /\ (d12 = 0 <-> bdec b1' = bdec b2') /\ sqrt d13 <= sqrt d12 + sqrt d23.
Proof. exact (fun HA => decomposed_metric p HA b1 b2 b3 d1 d2 d3 den1 den2 den3 b1' b2' b3'). Qed.
Print Assumptions C32_metric.

Theorem C32_different_steps b1 b2 :
  signum (bpar b1) = signum (bpar b2) -> shape (bpar b1) = shape (bpar b2) ->
  params_rep (bpar b1) -> params_rep (bpar b2) ->
  steps (bpar b1) <> steps (bpar b2) -> distance b1 b2 = Ok NaN.
Proof. exact (distance_nan b1 b2). Qed.
Print Assumptions C32_different_steps.

(** other numbers of channels or shapes are excluded by an assertion only *)
Theorem C32_other_shapes b1 b2 :
  signum (bpar b1) <> signum (bpar b2) \/ shape (bpar b1) <> shape (bpar b2) -> distance b1 b2 = UB.
Proof.
  intro H. unfold distance. destruct (Z.eqb_spec (signum (bpar b1)) (signum (bpar b2))) as [E|E]; [|reflexivity].
  destruct (list_Z_eqb (shape (bpar b1)) (shape (bpar b2))) eqn:Q; [|reflexivity].
  exfalso. destruct H as [H|H]; [auto|]. apply H. unfold list_Z_eqb in Q. apply andb_true_iff in Q as [L Q]. apply Nat.eqb_eq in L. revert L Q.
  generalize (shape (bpar b1)) as x, (shape (bpar b2)) as y. induction x as [|u x IH]; intros [|v y] L Q; try discriminate; [reflexivity|].
  cbn in Q. apply andb_true_iff in Q as [E1 E2]. apply Z.eqb_eq in E1. subst v. f_equal. apply IH; auto.
Qed.
Print Assumptions C32_other_shapes.

(** DB1, sides divisible by 2^steps: the mean squared difference of the
    samples themselves. *)
Theorem C32_mean_squared_db1 p b1 b2 d1 d2 b1' b2' : accepted p -> wtype p = 1%Z -> small_shape p ->
  level_rows p 0 = drows p -> level_cols p 0 = dcols p ->
  reachable p b1 -> reachable p b2 ->
  Z.of_nat (length d1) = signum p -> Z.of_nat (length d2) = signum p ->
  Forall (shaped p) d1 -> Forall (shaped p) d2 ->
  decompose b1 d1 null_denoiser = Ok (true, b1') -> decompose b2 d2 null_denoiser = Ok (true, b2') ->
  distance b1' b2' = Ok (Num (sum_sq_diff (concat (map (@elts R) d1)) (concat (map (@elts R) d2)) / IZR (samples p))).
Proof. exact (fun HA => mean_squared p HA b1 b2 d1 d2 b1' b2'). Qed.
Print Assumptions C32_mean_squared_db1.

(** [small_shape] cannot be dropped: the number of samples per channel is
    accumulated in an int.  With a 65536 x 65536 shape it is 0 and a buffer's
    distance to itself is NaN. *)
Theorem C32_large_shape_refuted :
  exists p (b : buffer R), accepted p /\ Forall (fun n => (1 <= n)%Z) (shape p) /\ new_buffer p = Ok b /\
    distance b b = Ok NaN.
Proof.
  exists (Params [65536; 65536]%Z 1 1 1), (Buffer (Params [65536; 65536]%Z 1 1 1) [[mempty; mempty; mempty; mempty]]).
  split; [|split; [|split]].
  - unfold accepted, params_rep, legal, u64, i32; cbn [shape signum steps wtype length].
    repeat split; auto; repeat constructor; lia.
  - repeat constructor; simpl; lia.
  - vm_compute. reflexivity.
  - set (b := Buffer _ _). unfold distance. rewrite Z.eqb_refl, list_Z_eqb_refl. cbn [andb guard bind].
    rewrite Z.sub_diag. change (to_size 0) with 0%Z. cbn [Z.eqb].
    rewrite (calc_ok b b) by (repeat constructor). cbn [bind].
    change (to_size (signum (bpar b) * signal_size (shape (bpar b)))) with 0%Z. cbn [Z.eqb].
    destruct (Req_EM_T _ 0) as [|n]; auto. exfalso; apply n. reflexivity.
Qed.
Print Assumptions C32_large_shape_refuted.

Example C32_case : small_shape (Params [8; 6]%Z 2 1 1) /\ samples (Params [8; 6]%Z 2 1 1) = 96%Z.
Proof. repeat split; simpl; try lia. repeat constructor; lia. Qed.

(** ** C33: EnergyDistribution *)
Theorem C33_energies (b : buffer R) :
  (no_elements b -> energy_distribution b = []) /\
  (~ no_elements b -> energy_distribution b = map (map energy) (bdec b) /\ bdec b <> []) /\
  Forall (Forall (fun e => 0 <= e)) (energy_distribution b).
Proof. exact (energy_distribution_ok b). Qed.
Print Assumptions C33_energies.

Theorem C33_add_up_db1 p b b' data : accepted p -> wtype p = 1%Z -> Forall (fun n => (1 <= n)%Z) (shape p) ->
  reachable p b ->
  (1 <= signum p)%Z -> Z.of_nat (length data) = signum p -> Forall (shaped p) data ->
  decompose b data null_denoiser = Ok (true, b') ->
  length (energy_distribution b') = length data /\
  forall c m es, nth_error data c = Some m -> nth_error (energy_distribution b') c = Some es ->
    length es = (nsteps p * bands p + 1)%nat /\ fold_right Rplus 0 es = padded_energy p m.
Proof. exact (fun HA => energies_add_up p HA b b' data). Qed.
Print Assumptions C33_add_up_db1.
(** a buffer with an element and one without *)
Example C33_case : let b := Buffer (Params [2]%Z 1 0 0) [[mcolvec [3; 4]]] in
  ~ no_elements b /\ no_elements (Buffer (Params [2]%Z 1 0 0) [[@mempty R]]).
Proof.
  split.
  - intros H. destruct (H _ _ (or_introl eq_refl) (or_introl eq_refl)) as [E|E]; discriminate.
  - intros ch m [<-|[]] [<-|[]]. auto.
Qed.

(** ** C34: GetValueRange *)
(** DB1 with at least one step: if all samples are in [0, M], the values of
    subband k of every channel are between M*first and M*second. *)
Theorem C34_sound_db1 p b b' data M : accepted p -> wtype p = 1%Z -> (1 <= steps p)%Z -> reachable p b ->
  (1 <= signum p)%Z -> Z.of_nat (length data) = signum p -> Forall (shaped p) data -> 0 <= M ->
  Forall (fun m => Forall (fun x => 0 <= x <= M) (elts m)) data ->
  decompose b data null_denoiser = Ok (true, b') ->
  forall c ch k m, nth_error (bdec b') c = Some ch -> nth_error ch k = Some m ->
  exists lo hi, get_value_range b' k = Ok (lo, hi) /\
    Forall (fun x => at_least x (scaled M lo) /\ at_most x (scaled M hi)) (elts m).
Proof. exact (fun HA => ranges_sound p HA b b' data M). Qed.
Print Assumptions C34_sound_db1.
(** The reported range, in numbers. *)
Theorem C34_value p (b : buffer R) k ch0 : accepted p -> bpar b = p -> nth_error (bdec b) 0 = Some ch0 ->
  length ch0 = (nsteps p * bands p + 1)%nat -> (1 <= nsteps p <= 62)%nat -> (k <= nsteps p * bands p)%nat ->
  get_value_range b k =
    Ok (if (k =? nsteps p * bands p)%nat then (Num 0, Num (2 * 2 ^ (nsteps p - 1)))
        else (Num (- 2 ^ (k / bands p)), Num (2 ^ (k / bands p)))).
Proof. exact (fun HA => range_value p HA b k ch0). Qed.
Print Assumptions C34_value.
(** With no steps the reported upper bound is infinite. *)
Theorem C34_zero_steps p (b : buffer R) : accepted p -> steps p = 0%Z -> reachable p b -> (1 <= signum p)%Z ->
  get_value_range b 0 = Ok (Num 0, PosInf).
Proof. exact (fun HA => range_zero_steps p HA b). Qed.
Print Assumptions C34_zero_steps.
(** For DB2 the range is wrong: samples in [0,1], reported lower bound 0, and
    a negative value in the approximation. *)
Theorem C34_db2_refuted : exists b b' ch m x hi, new_buffer pdb2 = Ok b /\
  Forall (fun x => 0 <= x <= 1) (elts impulse) /\
  decompose b [impulse] null_denoiser = Ok (true, b') /\
  nth_error (bdec b') 0 = Some ch /\ nth_error ch 1 = Some m /\ In x (elts m) /\
  get_value_range b' 1 = Ok (Num 0, hi) /\ x < 0.
Proof. exact range_db2. Qed.
Print Assumptions C34_db2_refuted.
