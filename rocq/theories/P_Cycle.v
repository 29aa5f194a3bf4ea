(** * P_Cycle: the drift of a signal that is decomposed and composed again and
    again. *)
Require Import List Bool Arith ZArith QArith Qreals Lia Reals Lra Psatz.
Require Import ZifyBool.
Require Import Flocq.Core.Core Flocq.IEEE754.BinarySingleNaN.
Require Import Verif.M_Base Verif.M_Params Verif.M_Buffer Verif.M_Image Verif.M_Real Verif.M_Float Verif.M_Binary32.
Require Import Verif.S_Params Verif.S_Buffer Verif.S_Exact Verif.S_Round Verif.S_Stable Verif.S_Local Verif.S_Image Verif.S_Cycle.
Require Import Verif.P_Base Verif.P_Wavelet Verif.P_Buffer Verif.P_Impl Verif.P_Api Verif.P_Api2.
Require Import Verif.P_Round2 Verif.P_Round3 Verif.P_Stable2.
Require Import Verif.P_Float Verif.P_Binary32 Verif.P_Bin2 Verif.P_Bin3 Verif.P_Loc4 Verif.P_Loc5 Verif.P_Loc6 Verif.P_Loc7.
Import ListNotations.
Open Scope R_scope.

Lemma pow_1_le r n : 0 <= r -> 1 <= (1 + r) ^ n.
Proof. intros H. apply pow_R1_Rle. lra. Qed.
Lemma drift_0 r e B : drift r e 0 B = 0.
Proof. unfold drift. simpl. lra. Qed.
Lemma drift_pos r e n B : 0 <= r -> 0 <= e -> 0 <= B -> 0 <= drift r e n B.
Proof.
  intros Hr He HB. unfold drift. pose proof (pos_INR n). pose proof (pow_1_le r n Hr).
  apply Rmult_le_pos; [apply Rmult_le_pos; lra|]. apply Rplus_le_le_0_compat; auto. apply Rmult_le_pos; auto.
Qed.
Lemma drift_S r e n B : 0 <= r -> 0 <= e -> 0 <= B ->
  drift r e n (B + (r * B + e)) + (r * B + e) <= drift r e (S n) B.
Proof.
  intros Hr He HB. unfold drift. rewrite S_INR. set (g := r * B + e). cbn [pow].
  pose proof (pow_1_le r n Hr) as P1. set (q := (1 + r) ^ n) in *.
  assert (G : 0 <= g) by (unfold g; apply Rplus_le_le_0_compat; auto; apply Rmult_le_pos; auto).
  replace (r * (B + g) + e) with ((1 + r) * g) by (unfold g; ring). pose proof (pos_INR n) as N0. set (k := INR n) in *.
  replace ((k + 1) * ((1 + r) * q) * g) with (k * q * ((1 + r) * g) + (1 + r) * q * g) by ring.
  apply Rplus_le_compat_l. assert (1 <= (1 + r) * q) by nra. nra.
Qed.

(** ** the induction *)
Section Steps.
Context {T : Type} {A : Arith T}.
Variables (p : params) (val : mat T -> nat -> nat -> R) (fine : mat T -> Prop) (r e cap : R).
Hypothesis (Hr : 0 <= r) (He : 0 <= e).
Definition limited (B : R) (m : mat T) : Prop := forall i j, (i < drows p)%nat -> (j < dcols p)%nat -> Rabs (val m i j) <= B.
Hypothesis STEP : forall (b : buffer T) data B, reachable p b -> Z.of_nat (length data) = signum p ->
  Forall (fun m => shaped p m /\ fine m) data -> Forall (limited B) data -> 0 <= B <= cap ->
  exists b' out, decompose b data null_denoiser = Ok (true, b') /\ compose b' 0 = Ok (true, out) /\ length out = length data /\
    forall c m o, nth_error data c = Some m -> nth_error out c = Some o -> (shaped p o /\ fine o) /\
      forall i j, (i < drows p)%nat -> (j < dcols p)%nat -> Rabs (val o i j - val m i j) <= r * B + e.

Theorem cycles_drift n : forall (b : buffer T) data B, reachable p b -> Z.of_nat (length data) = signum p ->
  Forall (fun m => shaped p m /\ fine m) data -> Forall (limited B) data -> 0 <= B -> B + drift r e n B <= cap ->
  exists b' out, cycles (fun m => m) n b data = Ok (b', out) /\ length out = length data /\
    forall c m o, nth_error data c = Some m -> nth_error out c = Some o -> (shaped p o /\ fine o) /\
      forall i j, (i < drows p)%nat -> (j < dcols p)%nat -> Rabs (val o i j - val m i j) <= drift r e n B.
Proof.
  induction n as [|n IH]; intros b data B HR HL HS HB B0 HC.
  - exists b, data. split; [reflexivity|]. split; auto. intros c m o Hm Ho. rewrite Hm in Ho. injection Ho as <-.
    split; [rewrite Forall_forall in HS; apply HS; eapply nth_error_In; eauto|].
    intros i j _ _. rewrite drift_0, Rminus_diag_eq, Rabs_R0 by auto. lra.
  - pose proof (drift_S r e n B Hr He B0) as DS. set (B1 := B + (r * B + e)) in *.
    assert (G0 : 0 <= r * B + e) by (apply Rplus_le_le_0_compat; auto; apply Rmult_le_pos; auto).
    assert (B10 : 0 <= B1) by (unfold B1; lra). pose proof (drift_pos r e n B1 Hr He B10) as D1.
    destruct (STEP b data B HR HL HS HB) as (b1 & out1 & E1 & E2 & L1 & H1); [split; [lra|]; unfold B1 in *; lra|].
    assert (W : Forall mwf data) by (eapply Forall_impl; [|exact HS]; intros m ((X & _) & _); exact X).
    pose proof (reach_decompose p b data null_denoiser true b1 HR W null_keepsA E1) as HR1.
    assert (PR : forall c o, nth_error out1 c = Some o -> exists m, nth_error data c = Some m).
    { intros c o Ho. destruct (nth_error data c) eqn:E; eauto. apply nth_error_None in E.
      assert (c < length out1)%nat by (apply nth_error_Some; congruence). lia. }
    destruct (IH b1 out1 B1) as (b2 & out2 & E3 & L2 & H2); auto.
    + lia.
    + apply Forall_forall. intros o Ho. apply In_nth_error in Ho as (c & Ho). destruct (PR c o Ho) as (m & Hm). apply (H1 c m o Hm Ho).
    + apply Forall_forall. intros o Ho. apply In_nth_error in Ho as (c & Ho). destruct (PR c o Ho) as (m & Hm).
      intros i j Hi Hj. destruct (H1 c m o Hm Ho) as (_ & H). specialize (H i j Hi Hj).
      rewrite Forall_forall in HB. pose proof (HB m (nth_error_In _ _ Hm) i j Hi Hj) as HBm.
      replace (val o i j) with (val m i j + (val o i j - val m i j)) by ring.
      eapply Rle_trans; [apply Rabs_triang|]. unfold B1. lra.
    + unfold B1 in *. lra.
    + exists b2, out2. cbn [cycles]. rewrite E1. cbn [bind fst snd]. rewrite E2. cbn [bind fst snd andb]. rewrite map_id.
      split; auto. split; [congruence|]. intros c m o2 Hm Ho2.
      destruct (nth_error out1 c) as [o|] eqn:Ho.
      2: { apply nth_error_None in Ho. assert (c < length out2)%nat by (apply nth_error_Some; congruence). lia. }
      destruct (H1 c m o Hm Ho) as (_ & HA1). destruct (H2 c o o2 Ho Ho2) as (S2 & HA2). split; auto.
      intros i j Hi Hj. specialize (HA1 i j Hi Hj). specialize (HA2 i j Hi Hj).
      replace (val o2 i j - val m i j) with ((val o2 i j - val o i j) + (val o i j - val m i j)) by ring.
      eapply Rle_trans; [apply Rabs_triang|]. lra.
Qed.
End Steps.

(** ** elements and positions *)
Lemma each_elem {T} (p : params) (P : T -> Prop) (m : mat T) (d : T) : shaped p m ->
  (forall i j, (i < drows p)%nat -> (j < dcols p)%nat -> P (nth (i * cols m + j) (elts m) d)) -> Forall P (elts m).
Proof.
  intros (W & Rm & Cm) H. apply Forall_forall. intros x Hx. apply (In_nth _ _ d) in Hx as (k & Hk & <-).
  unfold mwf in W. rewrite W, Rm, Cm in Hk. assert (0 < dcols p)%nat by nia.
  pose proof (Nat.div_mod k (dcols p) ltac:(lia)) as D. pose proof (Nat.mod_upper_bound k (dcols p) ltac:(lia)) as U.
  assert (k / dcols p < drows p)%nat by (apply Nat.div_lt_upper_bound; lia).
  specialize (H (k / dcols p)%nat (k mod dcols p)%nat ltac:(lia) ltac:(lia)). rewrite Cm in H.
  replace (k / dcols p * dcols p + k mod dcols p)%nat with k in H by lia. exact H.
Qed.
Lemma at_bound (p : params) (m : mat R) B : shaped p m -> Forall (fun v => Rabs v <= B) (elts m) ->
  forall i j, (i < drows p)%nat -> (j < dcols p)%nat -> Rabs (at_ m i j) <= B.
Proof.
  intros (W & Rm & Cm) H i j Hi Hj. rewrite Forall_forall in H. apply H. apply nth_In. unfold mwf in W. rewrite W. nia.
Qed.
Lemma sized_shaped {T} p (m : mat T) : sized (drows p) (dcols p) m -> shaped p m.
Proof. intros H. exact H. Qed.

Section Round.
Variables (u eta : R) (A : Arith R).
Hypothesis (HR : rounding u eta A) (Hu : 0 <= u) (Heta : 0 <= eta).
Variable p : params.
Hypothesis HA : accepted p.
Notation r := (float_rel u p * sqrt (INR (window_area p))).

Theorem drift_any n (b : buffer R) data B : @reachable R A p b -> (1 <= signum p)%Z ->
  Z.of_nat (length data) = signum p -> Forall (shaped p) data ->
  0 <= B -> Forall (fun m => Forall (fun v => Rabs v <= B) (elts m)) data -> 0 <= float_rel u p -> 0 <= underflow u eta p ->
  exists b' out, @cycles R A (fun m => m) n b data = Ok (b', out) /\ length out = length data /\
    forall c m o, nth_error data c = Some m -> nth_error out c = Some o -> sized (drows p) (dcols p) o /\
      forall i j, (i < drows p)%nat -> (j < dcols p)%nat -> Rabs (at_ o i j - at_ m i j) <= drift r (underflow u eta p) n B.
Proof.
  intros Hr Hs HL HS B0 HB F0 U0.
  destruct (@cycles_drift R A p at_ (fun _ => True) r (underflow u eta p) (B + drift r (underflow u eta p) n B)) with (n := n) (b := b) (data := data) (B := B)
    as (b' & out & E & L & H); auto; try lra.
  - apply Rmult_le_pos; auto. apply sqrt_pos.
  - intros b1 d1 B1 R1 L1 S1 M1 C1.
    assert (S1' : Forall (shaped p) d1) by (eapply Forall_impl; [|exact S1]; intros m [X _]; exact X).
    assert (M1' : Forall (fun m => Forall (fun v => Rabs v <= B1) (elts m)) d1).
    { rewrite Forall_forall in S1', M1 |- *. intros m Hm. apply (each_elem p _ m 0 (S1' m Hm)). intros i j Hi Hj. apply (M1 m Hm i j Hi Hj). }
    destruct (local_samples u eta A HR Hu Heta p HA b1 d1 B1 R1 Hs L1 S1' M1') as (b2 & o2 & E1 & E2 & L2 & H2).
    exists b2, o2. split; auto. split; auto. split; auto. intros c m o Hm Ho. destruct (H2 c m o Hm Ho) as (X & Y).
    split; [split; auto; apply sized_shaped; auto|]. intros i j Hi Hj. eapply Rle_trans; [apply Y; auto|]. right; ring.
  - eapply Forall_impl; [|exact HS]. auto.
  - rewrite Forall_forall in HS, HB |- *. intros m Hm. intros i j Hi Hj. apply (at_bound p m B (HS m Hm) (HB m Hm)); auto.
  - exists b', out. split; auto. split; auto. intros c m o Hm Ho. destruct (H c m o Hm Ho) as ((X & _) & Y). split; auto.
Qed.
End Round.

Section Bin.
Variable p : params.
Hypothesis HA : accepted p.
Variables r e : R.
Hypothesis (Hr : 0 <= r) (He : 0 <= e).
Hypothesis ONE : forall (b : buffer f32) data B, reachable p b ->
  Z.of_nat (length data) = signum p -> Forall (shaped p) data -> 0 <= B <= 2 ^ 46 ->
  Forall (fun m => Forall (fun x : f32 => is_finite x = true /\ Rabs (B2R x) <= B) (elts m)) data ->
  exists b' out, decompose b data null_denoiser = Ok (true, b') /\ compose b' 0 = Ok (true, out) /\
    length out = length data /\
    forall c m o, nth_error data c = Some m -> nth_error out c = Some o ->
      sized (drows p) (dcols p) o /\ all_finite o /\
      forall i j, (i < drows p)%nat -> (j < dcols p)%nat ->
        Rabs (at_ (values o) i j - at_ (values m) i j) <= r * B + e.

Theorem drift_32 n (b : buffer f32) data B : reachable p b ->
  Z.of_nat (length data) = signum p -> Forall (shaped p) data -> 0 <= B -> B + drift r e n B <= 2 ^ 46 ->
  Forall (fun m => Forall (fun x : f32 => is_finite x = true /\ Rabs (B2R x) <= B) (elts m)) data ->
  exists b' out, cycles (fun m => m) n b data = Ok (b', out) /\ length out = length data /\
    forall c m o, nth_error data c = Some m -> nth_error out c = Some o ->
      sized (drows p) (dcols p) o /\ all_finite o /\
      forall i j, (i < drows p)%nat -> (j < dcols p)%nat ->
        Rabs (at_ (values o) i j - at_ (values m) i j) <= drift r e n B.
Proof.
  intros HR HL HS B0 HC HB.
  destruct (@cycles_drift f32 binary32 p (fun m => at_ (values m)) all_finite r e (2 ^ 46)) with (n := n) (b := b) (data := data) (B := B)
    as (b' & out & E & L & H); auto; try lra.
  - intros b1 d1 B1 R1 L1 S1 M1 C1.
    assert (S1' : Forall (shaped p) d1) by (eapply Forall_impl; [|exact S1]; intros m [X _]; exact X).
    assert (M1' : Forall (fun m => Forall (fun x : f32 => is_finite x = true /\ Rabs (B2R x) <= B1) (elts m)) d1).
    { rewrite Forall_forall in S1, S1', M1 |- *. intros m Hm. destruct (S1 m Hm) as [SM FM]. unfold all_finite in FM.
      assert (SV : shaped p (values m)).
      { destruct SM as (W & Rm & Cm). split; [unfold mwf, values in *; cbn [rows cols elts]; rewrite map_length; exact W|split; assumption]. }
      assert (V : Forall (fun v => Rabs v <= B1) (elts (values m))).
      { apply (each_elem p _ (values m) 0 SV). intros i j Hi Hj. apply (M1 m Hm i j Hi Hj). }
      rewrite Forall_forall in V, FM |- *. intros x Hx. split; [apply FM; auto|]. apply V. apply in_map. auto. }
    destruct (ONE b1 d1 B1 R1 L1 S1' C1 M1') as (b2 & o2 & E1 & E2 & L2 & H2).
    exists b2, o2. split; auto. split; auto. split; auto. intros c m o Hm Ho. destruct (H2 c m o Hm Ho) as (X & F & Y).
    split; [split; auto; apply sized_shaped; auto|auto].
  - rewrite Forall_forall in HS, HB |- *. intros m Hm. split; auto. specialize (HB m Hm). eapply Forall_impl; [|exact HB]. intros x [X _]. exact X.
  - rewrite Forall_forall in HS, HB |- *. intros m Hm i j Hi Hj. destruct (HS m Hm) as (W & Rm & Cm). unfold at_, values; cbn [cols elts].
    assert (K : (i * cols m + j < length (elts m))%nat) by (unfold mwf in W; rewrite W, Rm, Cm; nia).
    specialize (HB m Hm). rewrite Forall_forall in HB.
    rewrite (nth_indep _ 0 (@B2R 24 128 (B754_zero false))) by (rewrite map_length; exact K). rewrite map_nth.
    apply HB. apply nth_In. exact K.
  - exists b', out. split; auto. split; auto. intros c m o Hm Ho. destruct (H c m o Hm Ho) as ((X & F) & Y). split; auto.
Qed.
End Bin.

(** ** 8-bit pictures *)
Lemma as_levels_shaped p m : shaped p m -> shaped p (as_levels m).
Proof. intros (W & Rm & Cm). split; [unfold mwf, as_levels in *; cbn [rows cols elts]; rewrite map_length; auto|auto]. Qed.
Lemma as_levels_levels m : levels (as_levels m).
Proof.
  apply Forall_forall. intros x Hx. unfold as_levels in Hx; cbn [elts] in Hx. apply in_map_iff in Hx as (y & <- & _).
  exists (to_pixel y). split; auto. apply to_pixel_range.
Qed.
Lemma mget_as_levels m i j x : mget m i j = Ok x -> mget (as_levels m) i j = Ok (of_pixel (to_pixel x)).
Proof.
  unfold mget, as_levels; cbn [rows cols elts]. destruct ((i <? rows m)%nat && (j <? cols m)%nat); [|discriminate]. cbn [guard bind].
  intros H. apply rd_ok in H. apply rd_some. rewrite nth_error_map, H. reflexivity.
Qed.
Theorem level_cycles p : accepted p -> levels_kept p -> forall n (b : buffer f32) data, reachable p b ->
  (1 <= signum p)%Z -> Z.of_nat (length data) = signum p -> Forall (shaped p) data -> Forall levels data ->
  exists b' out, cycles as_levels n b data = Ok (b', out) /\ length out = length data /\
    forall c m o, nth_error data c = Some m -> nth_error out c = Some o ->
      sized (drows p) (dcols p) o /\
      forall i j z, (i < drows p)%nat -> (j < dcols p)%nat -> (0 <= z <= 255)%Z -> mget m i j = Ok (of_pixel z) ->
        exists z', mget o i j = Ok (of_pixel z') /\ (Z.max 0 (z - Z.of_nat n) <= z' <= z)%Z.
Proof.
  intros HA HK. induction n as [|n IH]; intros b data HR Hs HL HS HV.
  - exists b, data. split; [reflexivity|]. split; auto. intros c m o Hm Ho. rewrite Hm in Ho. injection Ho as <-.
    split; [rewrite Forall_forall in HS; apply (HS m); eapply nth_error_In; eauto|].
    intros i j z Hi Hj Hz G. exists z. split; auto. lia.
  - destruct (levels_round_trip p HA HK b data HR Hs HL HS HV) as (b1 & out1 & E1 & E2 & L1 & H1).
    assert (W : Forall mwf data) by (eapply Forall_impl; [|exact HS]; intros m (X & _); exact X).
    pose proof (reach_decompose p b data null_denoiser true b1 HR W null_keepsA E1) as HR1.
    assert (PR : forall c o, nth_error out1 c = Some o -> exists m, nth_error data c = Some m).
    { intros c o Ho. destruct (nth_error data c) eqn:E; eauto. apply nth_error_None in E.
      assert (c < length out1)%nat by (apply nth_error_Some; congruence). lia. }
    destruct (IH b1 (map as_levels out1)) as (b2 & out2 & E3 & L2 & H2); auto.
    + rewrite map_length. lia.
    + apply Forall_forall. intros o' Ho'. apply in_map_iff in Ho' as (o & <- & Ho). apply as_levels_shaped.
      apply In_nth_error in Ho as (c & Ho). destruct (PR c o Ho) as (m & Hm). apply (H1 c m o Hm Ho).
    + apply Forall_forall. intros o' Ho'. apply in_map_iff in Ho' as (o & <- & Ho). apply as_levels_levels.
    + exists b2, out2. cbn [cycles]. rewrite E1. cbn [bind fst snd]. rewrite E2. cbn [bind fst snd andb].
      split; auto. rewrite map_length in L2. split; [congruence|]. intros c m o2 Hm Ho2.
      destruct (nth_error out1 c) as [o|] eqn:Ho.
      2: { apply nth_error_None in Ho. assert (c < length out2)%nat by (apply nth_error_Some; congruence). lia. }
      destruct (H1 c m o Hm Ho) as (_ & HA1).
      destruct (H2 c (as_levels o) o2 (map_nth_error _ _ _ Ho) Ho2) as (S2 & HA2). split; auto.
      intros i j z Hi Hj Hz G. destruct (HA1 i j z Hi Hj Hz G) as (x & Gx & Tx).
      pose proof (to_pixel_range x) as Rx. destruct (HA2 i j (to_pixel x) Hi Hj Rx (mget_as_levels o i j x Gx)) as (z' & Gz & Bz).
      exists z'. split; auto. lia.
Qed.

Lemma defect_pos t : 0 <= Q2R (filter_defect t) /\ 0 <= Q2R (coefficient_sum t).
Proof.
  assert (D : (0 <= filter_defect t)%Q /\ (0 <= coefficient_sum t)%Q).
  { unfold filter_defect, coefficient_sum. destruct t as [|q|q]; [split; discriminate| |split; discriminate].
    do 4 (destruct q as [q|q|]; try (split; discriminate)). }
  destruct D as [D1 D2]. split; rewrite <- RMicromega.Q2R_0; apply Qle_Rle; assumption.
Qed.
Lemma step_gain_1 u p : 0 <= u -> 1 <= step_gain u p.
Proof.
  intros Hu. unfold step_gain. apply pow_R1_Rle. unfold pass_gain. destruct (defect_pos (wtype p)) as [D1 D2].
  assert (1 <= (1 + u) ^ (2 * Z.to_nat (wtype p) + 4)) by (apply pow_R1_Rle; lra). pose proof (sqrt_pos 2).
  assert (0 <= sqrt 2 * Q2R (coefficient_sum (wtype p)) * ((1 + u) ^ (2 * Z.to_nat (wtype p) + 4) - 1)).
  { apply Rmult_le_pos; [apply Rmult_le_pos; auto|lra]. }
  lra.
Qed.
Lemma float_rel_pos u p : 0 <= u -> 0 <= float_rel u p.
Proof. intros Hu. unfold float_rel. pose proof (pow_R1_Rle (step_gain u p) (2 * nsteps p) (step_gain_1 u p Hu)). lra. Qed.
Lemma underflow_pos u eta p : 0 <= u -> 0 <= eta -> 0 <= underflow u eta p.
Proof.
  intros Hu He. unfold underflow. cbv zeta. pose proof (step_gain_1 u p Hu) as G.
  assert (P : forall n, 0 <= step_gain u p ^ n) by (intros; apply pow_le; lra).
  assert (Q : forall n, 0 <= (1 + u) ^ n) by (intros; apply pow_le; lra).
  repeat apply Rmult_le_pos; auto using pos_INR, sqrt_pos; try apply pos_INR; lra.
Qed.
