(** * T_Exact: properties C08, C09, C11, C12, C13, C56: the transform over the
    real numbers, with the decimal coefficients printed in the source. *)
Require Import List Bool Arith ZArith Reals Lra Lia.
Require Import Verif.M_Base Verif.M_Params Verif.M_Buffer Verif.M_Real.
Require Import Verif.S_Params Verif.S_Buffer Verif.S_Exact Verif.P_Exact Verif.P_Api2.
Import ListNotations.
Open Scope R_scope.
Local Existing Instance exactR.

(** ** C08: DB1 is reconstructed exactly. *)
Theorem C08_perfect_reconstruction p (b : buffer R) data :
  accepted p -> wtype p = 1%Z -> reachable p b ->
  (1 <= signum p)%Z -> Z.of_nat (length data) = signum p -> Forall (shaped p) data ->
  exists b', decompose b data null_denoiser = Ok (true, b') /\ compose b' 0 = Ok (true, data).
Proof. exact (fun HA => perfect_reconstruction p HA b data). Qed.
Print Assumptions C08_perfect_reconstruction.

(** a two-channel 7 x 5 image, 1 step of DB1: odd sides, padded to 8 x 6 *)
Definition ex1 : params := Params [7; 5]%Z 2 1 1.
Example ex1_accepted : accepted ex1.
Proof.
  unfold accepted, ex1, params_rep, legal, u64, i32; cbn [shape signum steps wtype length].
  repeat split; auto; repeat constructor; lia.
Qed.
Example ex1_reachable : exists b : buffer R, reachable ex1 b.
Proof. eexists. apply reach_new. vm_compute. reflexivity. Qed.
Example ex1_shaped (f : nat -> R) : Forall (shaped ex1) (repeat (Mat 5 7 (map f (seq 0 35))) 2).
Proof. repeat constructor. Qed.
Example ex1_padded : level_rows ex1 0 = 6%nat /\ level_cols ex1 0 = 8%nat.
Proof. split; reflexivity. Qed.
(** and a 1D one: 2 channels of 11 samples, 3 steps *)
Definition ex2 : params := Params [11]%Z 2 3 1.
Example ex2_accepted : accepted ex2.
Proof.
  unfold accepted, ex2, params_rep, legal, u64, i32; cbn [shape signum steps wtype length].
  repeat split; auto; repeat constructor; lia.
Qed.

(** ** C09: what comes back differs from the signal by at most [rel_err]
    times the norm of the padded channel; [rel_err] comes from how far the
    printed coefficients are from orthogonal ([filter_defect]). *)
Theorem C09_reconstruction_error p (b : buffer R) data :
  accepted p -> reachable p b ->
  (1 <= signum p)%Z -> Z.of_nat (length data) = signum p -> Forall (shaped p) data ->
  exists b' out, decompose b data null_denoiser = Ok (true, b') /\ compose b' 0 = Ok (true, out) /\
    length out = length data /\
    forall c m o, nth_error data c = Some m -> nth_error out c = Some o ->
      sized (drows p) (dcols p) o /\
      sqrt (total (drows p) (fun i => total (dcols p) (fun j => (at_ o i j - at_ m i j) * (at_ o i j - at_ m i j))))
        <= rel_err p * sqrt (padded_energy p m) /\
      forall i j, (i < drows p)%nat -> (j < dcols p)%nat ->
        Rabs (at_ o i j - at_ m i j) <= rel_err p * sqrt (padded_energy p m).
Proof. exact (fun HA => reconstruction_error p HA b data). Qed.
Print Assumptions C09_reconstruction_error.

(** The bound is tiny, whatever the number of steps: *)
Theorem C09_bound p : accepted p -> wtype p <> 0%Z ->
  rel_err p <= 3 / 10 ^ 8 /\ ((wtype p <= 5)%Z -> rel_err p <= 3 / 10 ^ 9).
Proof. exact (fun HA => rel_err_small p HA). Qed.
Print Assumptions C09_bound.
(** and the norm is that of a signal of bounded samples: *)
Theorem C09_padded_norm p m B : accepted p -> wtype p <> 0%Z -> shaped p m ->
  Forall (fun x => Rabs x <= B) (elts m) ->
  sqrt (padded_energy p m) <= sqrt (INR (level_rows p 0 * level_cols p 0)) * B.
Proof. exact (fun HA => padded_energy_bound p HA m B). Qed.
Print Assumptions C09_padded_norm.
(** DB1 has no error, DB5 with two steps has a known one *)
Example C09_db1 : rel_err ex1 = 0.
Proof. unfold rel_err, ex1; cbn [wtype filter_defect]. rewrite RMicromega.Q2R_0, Rplus_0_r, pow1. ring. Qed.
Example C09_db5 : accepted (Params [64; 40]%Z 1 2 5).
Proof.
  unfold accepted, params_rep, legal, u64, i32; cbn [shape signum steps wtype length].
  repeat split; auto; repeat constructor; lia.
Qed.

(** ** C11: subbands of a x + c y *)
Theorem C11_linear p (b1 b2 b3 b1' b2' b3' : buffer R) a c dx dy dz :
  accepted p -> reachable p b1 -> reachable p b2 -> reachable p b3 -> (1 <= signum p)%Z ->
  Z.of_nat (length dx) = signum p -> Z.of_nat (length dy) = signum p -> Z.of_nat (length dz) = signum p ->
  Forall (shaped p) dx -> Forall (shaped p) dy -> Forall (shaped p) dz ->
  (forall i mx my mz, nth_error dx i = Some mx -> nth_error dy i = Some my -> nth_error dz i = Some mz ->
     combines a c mx my mz) ->
  decompose b1 dx null_denoiser = Ok (true, b1') ->
  decompose b2 dy null_denoiser = Ok (true, b2') ->
  decompose b3 dz null_denoiser = Ok (true, b3') ->
  forall i chx chy chz k sx sy sz,
    nth_error (bdec b1') i = Some chx -> nth_error (bdec b2') i = Some chy -> nth_error (bdec b3') i = Some chz ->
    nth_error chx k = Some sx -> nth_error chy k = Some sy -> nth_error chz k = Some sz ->
    combines a c sx sy sz.
Proof. exact (fun HA => linear p HA b1 b2 b3 b1' b2' b3' a c dx dy dz). Qed.
Print Assumptions C11_linear.
Example C11_case : combines 2 (-3) (Mat 1 2 [1; 2]) (Mat 1 2 [0; 5]) (Mat 1 2 [2; -11]).
Proof. repeat split. cbn. f_equal; [lra|f_equal; lra]. Qed.

(** ** C12: energy *)
Theorem C12_energy p (b b' : buffer R) data :
  accepted p -> wtype p = 1%Z -> reachable p b ->
  (1 <= signum p)%Z -> Z.of_nat (length data) = signum p -> Forall (shaped p) data ->
  decompose b data null_denoiser = Ok (true, b') ->
  length (bdec b') = length data /\
  forall c m ch, nth_error data c = Some m -> nth_error (bdec b') c = Some ch ->
    channel_energy ch = padded_energy p m /\
    (level_rows p 0 = drows p -> level_cols p 0 = dcols p -> channel_energy ch = energy m).
Proof. exact (fun HA => energy_preserved p HA b b' data). Qed.
Print Assumptions C12_energy.
(** the hypothesis "no padding needed" holds for 8 x 6, 1 step *)
Example C12_case : let p := Params [8; 6]%Z 1 1 1 in accepted p /\
  level_rows p 0 = drows p /\ level_cols p 0 = dcols p.
Proof.
  cbv zeta. split; [|split; reflexivity].
  unfold accepted, params_rep, legal, u64, i32; cbn [shape signum steps wtype length].
  repeat split; auto; repeat constructor; lia.
Qed.

(** ** C13: scaled composition.  Size, for every arithmetic and wavelet: *)
Theorem C13_size (T : Type) (A : Arith T) p (b : buffer T) data den sf :
  accepted p -> reachable p b -> keeps_shape den ->
  (1 <= signum p)%Z -> Z.of_nat (length data) = signum p -> Forall (shaped p) data ->
  (0 <= sf <= steps p)%Z ->
  exists b' out, decompose b data den = Ok (true, b') /\ compose b' sf = Ok (true, out) /\
    Z.of_nat (length out) = signum p /\
    Forall (sized (drows p / 2 ^ Z.to_nat sf)
                  (if is_1d p then 1 else dcols p / 2 ^ Z.to_nat sf)%nat) out.
Proof. exact (scaled_size p b data den sf). Qed.
Print Assumptions C13_size.
(** Values, for DB1: the mean of a block of padded samples. *)
Theorem C13_block_means p (b b' : buffer R) data k :
  accepted p -> wtype p = 1%Z -> reachable p b ->
  (1 <= signum p)%Z -> Z.of_nat (length data) = signum p -> Forall (shaped p) data ->
  decompose b data null_denoiser = Ok (true, b') -> (k <= nsteps p)%nat ->
  exists out, compose b' (Z.of_nat k) = Ok (true, out) /\ length out = length data /\
    forall c m o, nth_error data c = Some m -> nth_error out c = Some o ->
      let r := (drows p / 2 ^ k)%nat in
      let w := if is_1d p then 1%nat else (dcols p / 2 ^ k)%nat in
      sized r w o /\
      forall i j, (i < r)%nat -> (j < w)%nat ->
        at_ o i j = block_mean p m k ((level_rows p k - r) / 2 + i) ((level_cols p k - w) / 2 + j).
Proof. exact (fun HA => scaled_compose p HA b b' data k). Qed.
Print Assumptions C13_block_means.
Theorem C13_constant p (b b' : buffer R) data k v c m :
  accepted p -> wtype p = 1%Z -> reachable p b ->
  (1 <= signum p)%Z -> Z.of_nat (length data) = signum p -> Forall (shaped p) data ->
  decompose b data null_denoiser = Ok (true, b') -> (k <= nsteps p)%nat ->
  nth_error data c = Some m -> constant v m ->
  exists out o, compose b' (Z.of_nat k) = Ok (true, out) /\ nth_error out c = Some o /\ constant v o.
Proof. exact (fun HA => constant_compose p HA b b' data k v c m). Qed.
Print Assumptions C13_constant.

(** ** C56 *)
Theorem C56_constant p (b b' : buffer R) data v c m ch :
  accepted p -> wtype p = 1%Z -> reachable p b ->
  (1 <= signum p)%Z -> Z.of_nat (length data) = signum p -> Forall (shaped p) data ->
  decompose b data null_denoiser = Ok (true, b') ->
  nth_error data c = Some m -> constant v m -> nth_error (bdec b') c = Some ch ->
  exists details a, ch = details ++ [a] /\ length details = (nsteps p * bands p)%nat /\
    Forall (constant 0) details /\ constant (v * (if is_1d p then sqrt 2 else 2) ^ nsteps p) a.
Proof. exact (fun HA => constant_details p HA b b' data v c m ch). Qed.
Print Assumptions C56_constant.
Example C56_case (v : R) : constant v (Mat 5 7 (repeat v 35)) /\ shaped ex1 (Mat 5 7 (repeat v 35)).
Proof. split; [repeat constructor|]. split; auto. reflexivity. Qed.
