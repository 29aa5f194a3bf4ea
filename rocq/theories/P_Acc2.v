(** * P_Acc2: P_Acc at the level of Decompose and Compose, and constants. *)
Require Import List Bool Arith ZArith QArith Qreals Lia Reals Lra.
Require Import Verif.M_Base Verif.M_Params Verif.M_Padding Verif.M_Wavelet Verif.M_Buffer Verif.M_Real Verif.M_Float Verif.M_Binary32.
Require Import Verif.S_Params Verif.S_Padding Verif.S_Buffer Verif.S_Exact Verif.S_Round Verif.S_Stable.
Require Import Verif.P_Base Verif.P_Wavelet Verif.P_Buffer Verif.P_Impl Verif.P_Api Verif.P_Api2.
Require Import Verif.P_Sum Verif.P_Lin Verif.P_PR Verif.P_L2 Verif.P_Rec Verif.P_Exact Verif.P_Rel Verif.P_Round Verif.P_Round2 Verif.P_Round3.
Require Import Verif.P_Float Verif.P_Binary32 Verif.P_Bin2 Verif.P_Bin3.
Require Import Verif.P_Stable Verif.P_Stable2 Verif.P_Dual Verif.P_Dual2 Verif.P_Dual3 Verif.P_Acc Verif.P_BinMove Verif.P_BinMove2.
Import ListNotations.
Open Scope R_scope.

Section S.
Variables (u eta : R) (A : Arith R).
Hypothesis HR : rounding u eta A.
Hypothesis Hu : 0 <= u.
Hypothesis Heta : 0 <= eta.
Variable p : params.
Hypothesis HA : accepted p.

Theorem decompose_accurate b be data : @reachable R A p b -> @reachable R exactR p be ->
  (1 <= signum p)%Z -> Z.of_nat (length data) = signum p -> Forall (shaped p) data ->
  exists b' be', @decompose R A b data null_denoiser = Ok (true, b') /\
    @decompose R exactR be data null_denoiser = Ok (true, be') /\
    length (bdec b') = length data /\
    forall c m ch che, nth_error data c = Some m -> nth_error (bdec b') c = Some ch -> nth_error (bdec be') c = Some che ->
      sqrt (distance2 che ch) <= accuracy u eta p (sqrt (padded_energy p m)) /\
      sqrt (channel_energy ch) <= step_gain u p ^ nsteps p * sqrt (padded_energy p m) + underflow u eta p / 2 /\
      (1 - float_rel u p) * sqrt (padded_energy p m) - 2 * underflow u eta p <=
        step_gain u p ^ nsteps p * sqrt (channel_energy ch).
Proof.
  intros Hr Hre Hsig HL HS. eexists _, _. split; [apply (@dec_okA R A p HA b data); auto|].
  split; [apply (@dec_okA R exactR p HA be data); auto|].
  cbn [bdec]. rewrite map_length. split; auto. intros c m ch che Hm Hc Hce.
  rewrite nth_error_map, Hm in Hc. inversion Hc; subst ch; clear Hc.
  rewrite !nth_error_map, Hm in Hce. inversion Hce; subst che; clear Hce.
  apply nth_error_In in Hm. rewrite Forall_forall in HS. split; [|split].
  - apply (dec_accuracy u eta A HR Hu Heta p HA); auto.
  - apply (dec_energy u eta A HR Hu Heta p HA); auto.
  - apply (dec_energy_lower u eta A HR Hu Heta p HA); auto.
Qed.

Theorem compose_accurate (chs : list (decomposition R)) :
  (1 <= signum p)%Z -> Z.of_nat (length chs) = signum p -> Forall (has_layout p) chs ->
  exists out oute, @compose R A (Buffer p chs) 0 = Ok (true, out) /\
    @compose R exactR (Buffer p chs) 0 = Ok (true, oute) /\ length out = length chs /\
    forall c ch o oe, nth_error chs c = Some ch -> nth_error out c = Some o -> nth_error oute c = Some oe ->
      sized (drows p) (dcols p) o /\
      error p o oe <= accuracy u eta p (sqrt (channel_energy ch)).
Proof.
  intros Hsig HLc HLay. rewrite Forall_forall in HLay. eexists _, _.
  pose proof (acc_steps p HA) as St.
  split. { apply (@compose_ok R A p HA); cbn [bpar bdec]; auto. lia. }
  split. { apply (@compose_ok R exactR p HA); cbn [bpar bdec]; auto; try lia. }
  cbn [bdec]. rewrite map_length. split; auto. intros c ch o oe Hc Ho Hoe.
  pose proof (map_nth_error (@com_of p R A 0) c chs Hc) as Q1. pose proof (eq_trans (eq_sym Ho) Q1) as Q. inversion Q; subst o; clear Q Q1 Ho.
  pose proof (map_nth_error (@com_of p R exactR 0) c chs Hc) as Q1. pose proof (eq_trans (eq_sym Hoe) Q1) as Q. inversion Q; subst oe; clear Q Q1 Hoe.
  apply nth_error_In in Hc. split; [apply com_sized0; auto|].
  apply (com_accuracy u eta A HR Hu Heta p HA); auto.
Qed.
End S.

(** ** the constants of binary32 *)
Theorem accuracy_bound p n : accepted p -> 0 <= n ->
  accuracy u32 eta32 p n <= INR (passes p * nsteps p) * (38 / 10 ^ 7) * n + INR (nsteps p) / 2 ^ 75.
Proof.
  intros HA Hn. unfold accuracy. destruct (float_bounds p HA) as [_ U].
  assert (U2 : underflow u32 eta32 p / 2 <= INR (nsteps p) / 2 ^ 75).
  { change 75%nat with (74 + 1)%nat. rewrite pow_add. unfold Rdiv in *. rewrite Rinv_mult. rewrite <- Rmult_assoc.
    replace (/ 2 ^ 1) with (/ 2) by (simpl; f_equal; lra). apply Rmult_le_compat_r; lra. }
  assert (G : step_gain u32 p ^ nsteps p - gain_exact p <= INR (passes p * nsteps p) * (38 / 10 ^ 7)); [|apply Rplus_le_compat; auto; apply Rmult_le_compat_r; auto].
  pose proof (gain_exact_1 p) as G1. pose proof (pos_INR (passes p * nsteps p)) as I0.
  destruct (Z.eq_dec (wtype p) 0) as [E0|Ht].
  { apply (acc_none p HA) in E0. unfold nsteps in *. rewrite E0 in *. simpl Z.to_nat in *. simpl (step_gain u32 p ^ 0). lra. }
  pose proof (K62 p HA) as K. rewrite (K_nsteps p HA) in K.
  destruct (P_Bin3.gain_pow p HA (nsteps p) Ht) as [_ H]. destruct (H ltac:(lia)) as [H1 _]. lra.
Qed.
Theorem gain_bound p : accepted p -> step_gain u32 p ^ nsteps p <= 1 + INR (passes p * nsteps p) * (375 / 10 ^ 8).
Proof.
  intros HA. pose proof (pos_INR (passes p * nsteps p)) as I0.
  destruct (Z.eq_dec (wtype p) 0) as [E0|Ht].
  { apply (acc_none p HA) in E0. unfold nsteps in *. rewrite E0 in *. simpl Z.to_nat in *. simpl (step_gain u32 p ^ 0). lra. }
  pose proof (K62 p HA) as K. rewrite (K_nsteps p HA) in K.
  destruct (P_Bin3.gain_pow p HA (nsteps p) Ht) as [_ H]. destruct (H ltac:(lia)) as [H1 _]. lra.
Qed.

Theorem energy_binary32 p b data : accepted p -> @reachable f32 binary32 p b ->
  (1 <= signum p)%Z -> Z.of_nat (length data) = signum p -> Forall (shaped p) data ->
  Forall all_finite data -> Forall (fun m => padded_energy p (values m) <= 2 ^ 220) data ->
  exists b', @decompose f32 binary32 b data null_denoiser = Ok (true, b') /\ length (bdec b') = length data /\
    forall c m ch, nth_error data c = Some m -> nth_error (bdec b') c = Some ch ->
      let e := INR (passes p * nsteps p) * (75 / 10 ^ 7) in
      let n := sqrt (padded_energy p (values m)) in
      sqrt (channel_energy (map values ch)) <= (1 + e / 2) * n + INR (nsteps p) / 2 ^ 74 /\
      (1 - e) * n - INR (nsteps p) / 2 ^ 73 <= (1 + e / 2) * sqrt (channel_energy (map values ch)).
Proof.
  intros HA Hr Hsig HL HS HF HE. eexists. split; [apply (@dec_okA f32 binary32 p HA b data); auto|].
  split; [cbn [bdec]; apply map_length|]. intros c m ch Hm Hc e n. cbn [bdec] in Hc.
  rewrite nth_error_map, Hm in Hc. inversion Hc; subst ch. apply nth_error_In in Hm. rewrite Forall_forall in HS, HF, HE.
  rewrite (dec_values p HA m) by auto. pose proof (shaped_values p m (HS m Hm)) as Sv.
  pose proof (dec_energy u32 eta32 A32 A32_rounding u32_pos eta32_pos p HA (values m) Sv) as H1.
  pose proof (dec_energy_lower u32 eta32 A32 A32_rounding u32_pos eta32_pos p HA (values m) Sv) as H2.
  fold n in H1, H2. set (k := sqrt (channel_energy _)) in *. destruct (float_bounds p HA) as [F U]. fold e in F.
  pose proof (gain_bound p HA) as G. replace (INR (passes p * nsteps p) * (375 / 10 ^ 8)) with (e / 2) in G by (unfold e; field).
  assert (U3 : 2 * underflow u32 eta32 p <= INR (nsteps p) / 2 ^ 73).
  { replace (INR (nsteps p) / 2 ^ 73) with (2 * (INR (nsteps p) / 2 ^ 74)); [lra|].
    change 74%nat with (73 + 1)%nat. rewrite pow_add. simpl (2 ^ 1). field. }
  assert (N0 : 0 <= n) by apply sqrt_pos. assert (K0 : 0 <= k) by apply sqrt_pos.
  assert (UP : 0 <= INR (nsteps p) / 2 ^ 74).
  { apply Rmult_le_pos; [apply pos_INR|]. apply Rlt_le, Rinv_0_lt_compat, pow_lt. lra. }
  split.
  - assert (step_gain u32 p ^ nsteps p * n <= (1 + e / 2) * n) by (apply Rmult_le_compat_r; auto). lra.
  - assert (step_gain u32 p ^ nsteps p * k <= (1 + e / 2) * k) by (apply Rmult_le_compat_r; auto).
    assert ((1 - e) * n <= (1 - float_rel u32 p) * n) by (apply Rmult_le_compat_r; lra). lra.
Qed.
