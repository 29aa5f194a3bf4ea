(** * T_Cycle: property C129 (a signal decomposed and composed n times). *)
Require Import List Bool Arith ZArith Reals Lra Lia.
Require Import Flocq.Core.Core Flocq.IEEE754.BinarySingleNaN.
Require Import Verif.M_Base Verif.M_Params Verif.M_Buffer Verif.M_Real Verif.M_Float Verif.M_Binary32.
Require Import Verif.S_Params Verif.S_Buffer Verif.S_Exact Verif.S_Round Verif.S_Stable Verif.S_Local Verif.S_Cycle.
Require Import Verif.P_Api Verif.P_Float Verif.P_Cycle Verif.T_Local.
Import ListNotations.
Open Scope R_scope.

(** ** C129: n times decomposed and composed, in any arithmetic that rounds with
    relative error u: the error is n times that of one cycle, times (1 + r)^n *)
Theorem C129_any_rounding u eta (A : Arith R) p n (b : buffer R) data B :
  rounding u eta A -> 0 <= u -> 0 <= eta -> accepted p -> @reachable R A p b ->
  (1 <= signum p)%Z -> Z.of_nat (length data) = signum p -> Forall (shaped p) data -> 0 <= B ->
  Forall (fun m => Forall (fun v => Rabs v <= B) (elts m)) data ->
  exists b' out, @cycles R A (fun m => m) n b data = Ok (b', out) /\ length out = length data /\
    forall c m o, nth_error data c = Some m -> nth_error out c = Some o ->
      sized (drows p) (dcols p) o /\
      forall i j, (i < drows p)%nat -> (j < dcols p)%nat ->
        Rabs (at_ o i j - at_ m i j) <= drift (float_rel u p * sqrt (INR (window_area p))) (underflow u eta p) n B.
Proof.
  intros HR Hu He HA Hb Hs HL HS B0 HB.
  exact (drift_any u eta A HR Hu He p HA n b data B Hb Hs HL HS B0 HB (float_rel_pos u p Hu) (underflow_pos u eta p Hu He)).
Qed.
Print Assumptions C129_any_rounding.
(** in single precision, as long as the bound does not leave the range of C93 *)
Theorem C129_binary32 p n (b : buffer f32) data B :
  let r := INR (passes p * nsteps p) * (75 / 10 ^ 7) * sqrt (INR (window_area p)) in
  let e := INR (nsteps p) / 2 ^ 74 in
  accepted p -> reachable p b ->
  (1 <= signum p)%Z -> Z.of_nat (length data) = signum p -> Forall (shaped p) data -> 0 <= B -> B + drift r e n B <= 2 ^ 46 ->
  Forall (fun m => Forall (fun x : f32 => is_finite x = true /\ Rabs (B2R x) <= B) (elts m)) data ->
  exists b' out, cycles (fun m => m) n b data = Ok (b', out) /\ length out = length data /\
    forall c m o, nth_error data c = Some m -> nth_error out c = Some o ->
      sized (drows p) (dcols p) o /\ all_finite o /\
      forall i j, (i < drows p)%nat -> (j < dcols p)%nat ->
        Rabs (at_ (values o) i j - at_ (values m) i j) <= drift r e n B.
Proof.
  intros r e HA Hb Hs HL HS B0 HC HB. apply (drift_32 p r e); auto.
  - unfold r. repeat apply Rmult_le_pos; try apply pos_INR; try apply sqrt_pos; lra.
  - unfold e, Rdiv. apply Rmult_le_pos; [apply pos_INR|]. left. apply Rinv_0_lt_compat. apply pow_lt. lra.
  - intros b1 d1 B1 R1 L1 S1 C1 M1. destruct (C93_binary32 p b1 d1 B1 HA R1 Hs L1 S1 C1 M1) as (b2 & o2 & E1 & E2 & E3 & H).
    exists b2, o2. split; auto. split; auto. split; auto. intros c m o Hm Ho. destruct (H c m o Hm Ho) as (X & F & Y).
    split; auto. split; auto. intros i j Hi Hj. eapply Rle_trans; [apply Y; auto|]. right. unfold r, e. ring.
Qed.
Print Assumptions C129_binary32.
Theorem C129_binary32_db1 p n (b : buffer f32) data B :
  let r := INR (passes p * nsteps p) * (102 / 10 ^ 8) * sqrt (INR (window_area p)) in
  let e := INR (nsteps p) / 2 ^ 74 in
  accepted p -> wtype p = 1%Z -> reachable p b ->
  (1 <= signum p)%Z -> Z.of_nat (length data) = signum p -> Forall (shaped p) data -> 0 <= B -> B + drift r e n B <= 2 ^ 46 ->
  Forall (fun m => Forall (fun x : f32 => is_finite x = true /\ Rabs (B2R x) <= B) (elts m)) data ->
  exists b' out, cycles (fun m => m) n b data = Ok (b', out) /\ length out = length data /\
    forall c m o, nth_error data c = Some m -> nth_error out c = Some o ->
      sized (drows p) (dcols p) o /\ all_finite o /\
      forall i j, (i < drows p)%nat -> (j < dcols p)%nat ->
        Rabs (at_ (values o) i j - at_ (values m) i j) <= drift r e n B.
Proof.
  intros r e HA H1 Hb Hs HL HS B0 HC HB. apply (drift_32 p r e); auto.
  - unfold r. repeat apply Rmult_le_pos; try apply pos_INR; try apply sqrt_pos; lra.
  - unfold e, Rdiv. apply Rmult_le_pos; [apply pos_INR|]. left. apply Rinv_0_lt_compat. apply pow_lt. lra.
  - intros b1 d1 B1 R1 L1 S1 C1 M1. destruct (C93_binary32_db1 p b1 d1 B1 HA H1 R1 Hs L1 S1 C1 M1) as (b2 & o2 & E1 & E2 & E3 & H).
    exists b2, o2. split; auto. split; auto. split; auto. intros c m o Hm Ho. destruct (H c m o Hm Ho) as (X & F & Y).
    split; auto. split; auto. intros i j Hi Hj. eapply Rle_trans; [apply Y; auto|]. right. unfold r, e. ring.
Qed.
Print Assumptions C129_binary32_db1.
(** the 64 x 48 picture of C93, three steps of DB1, a hundred cycles: a hundredth
    of full scale at most *)
Example C129_case : drift (INR (passes pic * nsteps pic) * (102 / 10 ^ 8) * sqrt (INR (window_area pic))) (INR (nsteps pic) / 2 ^ 74) 100 1
  <= 1 / 100.
Proof.
  destruct C93_case as (_ & _ & W & _). rewrite W. change (passes pic * nsteps pic)%nat with 6%nat. change (nsteps pic) with 3%nat.
  replace (INR 64) with (8 * 8) by (rewrite INR_IZR_INZ; cbn; lra). rewrite sqrt_square by lra. unfold drift.
  replace (INR 100) with 100 by (rewrite INR_IZR_INZ; reflexivity). replace (INR 6) with 6 by (rewrite INR_IZR_INZ; reflexivity).
  replace (INR 3) with 3 by (rewrite INR_IZR_INZ; reflexivity).
  assert (G : (1 + 6 * (102 / 10 ^ 8) * 8) ^ 100 <= 3 / 2).
  { set (q := 1 + 6 * (102 / 10 ^ 8) * 8). assert (Q0 : 0 <= q <= 1 + 5 / 10 ^ 5) by (unfold q; lra).
    eapply Rle_trans; [apply pow_incr; exact Q0|]. clear.
    assert (P : forall x n, 0 <= x -> INR n * x <= 1 / 3 -> (1 + x) ^ n <= 1 + 3 / 2 * (INR n * x)).
    { intros x n Hx. induction n as [|n IH]; [intros; simpl; lra|]. rewrite S_INR. intros H. cbn [pow].
      assert (Hn : INR n * x <= 1 / 3) by nra. specialize (IH Hn). pose proof (pos_INR n) as N0.
      assert (0 <= INR n * x) by (apply Rmult_le_pos; auto). assert ((INR n * x) * x <= 1 / 3 * x) by (apply Rmult_le_compat_r; auto). nra. }
    replace 100%nat with 100%nat by reflexivity. specialize (P (5 / 10 ^ 5) 100%nat ltac:(lra)).
    replace (INR 100) with 100 in P by (rewrite INR_IZR_INZ; reflexivity). specialize (P ltac:(lra)). lra. }
  assert (E : 3 / 2 ^ 74 <= / 10 ^ 9).
  { unfold Rdiv. rewrite (pow_IZR 2 74), (pow_IZR 10 9). apply (Rmult_le_reg_r (IZR (2 ^ Z.of_nat 74))); [apply IZR_lt; reflexivity|].
    rewrite Rmult_assoc, Rinv_l by (apply IZR_neq; discriminate). rewrite Rmult_1_r.
    apply (Rmult_le_reg_l (IZR (10 ^ Z.of_nat 9))); [apply IZR_lt; reflexivity|].
    rewrite <- Rmult_assoc, Rinv_r by (apply IZR_neq; discriminate). rewrite Rmult_1_l, <- mult_IZR. apply IZR_le. vm_compute. discriminate. }
  set (g := (1 + 6 * (102 / 10 ^ 8) * 8) ^ 100) in *. assert (G0 : 0 <= g) by (apply pow_le; lra).
  set (e := 3 / 2 ^ 74) in *. assert (E0 : 0 <= e) by (unfold e, Rdiv; apply Rmult_le_pos; [lra|left; apply Rinv_0_lt_compat, pow_lt; lra]).
  assert (X : 6 * (102 / 10 ^ 8) * 8 * 1 + e <= 5 / 10 ^ 5) by lra.
  apply Rle_trans with (100 * (3 / 2) * (5 / 10 ^ 5)); [|lra].
  apply Rmult_le_compat; [lra|lra|lra|exact X].
Qed.

(** ** an 8-bit picture stored as such after each cycle: a level may drop by one
    each time, never more, and never rises *)
Theorem C129_levels p n (b : buffer f32) data :
  accepted p -> levels_kept p -> reachable p b ->
  (1 <= signum p)%Z -> Z.of_nat (length data) = signum p -> Forall (shaped p) data ->
  Forall (fun m => Forall (fun x => exists z, (0 <= z <= 255)%Z /\ x = of_pixel z) (elts m)) data ->
  exists b' out, cycles as_levels n b data = Ok (b', out) /\ length out = length data /\
    forall c m o, nth_error data c = Some m -> nth_error out c = Some o ->
      sized (drows p) (dcols p) o /\
      forall i j z, (i < drows p)%nat -> (j < dcols p)%nat -> (0 <= z <= 255)%Z -> mget m i j = Ok (of_pixel z) ->
        exists z', mget o i j = Ok (of_pixel z') /\ (Z.max 0 (z - Z.of_nat n) <= z' <= z)%Z.
Proof. exact (fun HA HK => level_cycles p HA HK n b data). Qed.
Print Assumptions C129_levels.
(** one cycle does not settle the picture: white darkens twice *)
Theorem C129_settles_refuted : exists p (b b1 b2 : buffer f32) o1 o2,
  accepted p /\ levels_kept p /\ reachable p b /\ shaped p white /\
  cycles as_levels 1 b [white] = Ok (b1, [o1]) /\ cycles as_levels 2 b [white] = Ok (b2, [o2]) /\
  map to_pixel (elts white) = [255; 255; 255; 255]%Z /\ map to_pixel (elts o1) = [254; 254; 254; 254]%Z /\
  map to_pixel (elts o2) = [253; 253; 253; 253]%Z.
Proof.
  set (p := Params [2; 2]%Z 1 1 1).
  assert (HA : accepted p) by (unfold accepted, p, params_rep, legal, u64, i32; cbn [shape signum steps wtype length]; repeat split; auto; repeat constructor; lia).
  assert (Eb : exists b : buffer f32, new_buffer p = Ok b) by (eexists; vm_compute; reflexivity). destruct Eb as (b & Eb).
  pose proof (reach_new _ _ Eb : reachable p b) as HR. assert (HS : shaped p white) by (repeat split).
  assert (HK : levels_kept p) by (apply C95_steps; auto; left; cbn; lia).
  assert (R : forall n, exists b' o, cycles as_levels n b [white] = Ok (b', [o])).
  { intros n. destruct (C129_levels p n b [white]) as (b' & out & E & L & _); auto.
    - cbn. lia.
    - repeat constructor; exists 255%Z; (split; [lia|reflexivity]).
    - destruct out as [|o [|? ?]]; try discriminate L. exists b', o. exact E. }
  destruct (R 1%nat) as (b1 & o1 & E1). destruct (R 2%nat) as (b2 & o2 & E2).
  exists p, b, b1, b2, o1, o2. do 6 (split; [assumption|]). split; [vm_compute; reflexivity|].
  assert (EV : match new_buffer p with Ok b => match cycles as_levels 1 b [white], cycles as_levels 2 b [white] with
     Ok (_, [o1]), Ok (_, [o2]) => (map to_pixel (elts o1), map to_pixel (elts o2)) | _, _ => ([], []) end | _ => ([], []) end
     = ([254; 254; 254; 254]%Z, [253; 253; 253; 253]%Z)) by (vm_compute; reflexivity).
  rewrite Eb in EV. cbv beta iota in EV. rewrite E1, E2 in EV. injection EV as V1 V2. split; assumption.
Qed.
Print Assumptions C129_settles_refuted.
