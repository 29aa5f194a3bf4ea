(** * P_Near2: coefficients in binary32, one by one *)
Require Import List Bool Arith ZArith QArith Qreals Lia Reals Lra.
Require Import ZifyBool.
Require Import Flocq.Core.Core Flocq.IEEE754.BinarySingleNaN.
Require Import Verif.M_Base Verif.M_Params Verif.M_Wavelet Verif.M_Buffer Verif.M_Real Verif.M_Float Verif.M_Binary32 Verif.M_Denoise.
Require Import Verif.S_Params Verif.S_Buffer Verif.S_Exact Verif.S_Round Verif.S_Stable Verif.S_Local Verif.S_Lossy Verif.S_Daub.
Require Import Verif.P_Base Verif.P_Wavelet Verif.P_Buffer Verif.P_Impl Verif.P_Api Verif.P_Api2 Verif.P_Sum Verif.P_Lin Verif.P_PR Verif.P_L2 Verif.P_Rec Verif.P_Exact
  Verif.P_Rel Verif.P_Round Verif.P_Round2 Verif.P_Round3 Verif.P_Float Verif.P_Binary32 Verif.P_Bin2 Verif.P_Bin3 Verif.P_Stable Verif.P_Stable2 Verif.P_Dual3 Verif.P_BinMove Verif.P_BinMove2 Verif.P_DenoiseF Verif.P_Loc4 Verif.P_Loc5 Verif.P_Loc6 Verif.P_Loc7 Verif.P_Peak Verif.P_Peak2 Verif.P_Peak3 Verif.P_Near Verif.P_Smooth.
Import ListNotations.
Open Scope R_scope.

Section F.
Variable p : params.
Hypothesis HA : accepted p.
Let HR := A32_rounding.

Lemma near32 m B k d de : shaped p m -> 0 <= B <= 2 ^ 46 -> bounded B m ->
  nth_error (@dec_of p f32 binary32 null_denoiser m) k = Some d -> nth_error (@dec_of p R exactR null_denoiser (values m)) k = Some de ->
  all_finite d /\ forall i j, (i < level_rows p (depth p k))%nat -> (j < level_cols p (depth p k))%nat ->
    Rabs (at_ (values d) i j - at_ de i j) <= off u32 eta32 p (passes p * depth p k) B.
Proof.
  intros HS HB Bm Hd Hde.
  pose proof (bounded_energy p HA B m HS Bm (proj2 HB)) as EN.
  pose proof (dec_values p HA m HS (bounded_finite B m Bm) EN) as V.
  pose proof (subbands_finite p HA m HS (bounded_finite B m Bm) EN) as FIN. rewrite Forall_forall in FIN.
  split; [apply (FIN d (nth_error_In _ _ Hd))|].
  apply (coefficients_near u32 eta32 A32 HR u32_pos eta32_pos p HA (values m) B k (values d) de (shaped_values p m HS) (proj1 HB) (bounded_values B m Bm)).
  - rewrite <- V, nth_error_map, Hd. reflexivity.
  - exact Hde.
Qed.
Theorem pointwise32 b be data B : @reachable f32 binary32 p b -> @reachable R exactR p be -> (1 <= signum p)%Z -> Z.of_nat (length data) = signum p ->
  Forall (shaped p) data -> 0 <= B <= 2 ^ 46 -> Forall (bounded B) data ->
  exists b' be', @decompose f32 binary32 b data null_denoiser = Ok (true, b') /\ @decompose R exactR be (map values data) null_denoiser = Ok (true, be') /\
    forall c ch che k d de, nth_error (bdec b') c = Some ch -> nth_error (bdec be') c = Some che -> nth_error ch k = Some d -> nth_error che k = Some de ->
      all_finite d /\ forall i j, (i < level_rows p (depth p k))%nat -> (j < level_cols p (depth p k))%nat ->
        Rabs (at_ (values d) i j - at_ de i j) <= off u32 eta32 p (passes p * depth p k) B.
Proof.
  intros Hr Hre Hsig HL HS B0 HB. eexists _, _. split; [apply (@dec_okA f32 binary32 p HA b data); auto|].
  split; [apply (@dec_okA R exactR p HA be (map values data)); auto; [rewrite map_length; auto|]|].
  { apply Forall_forall. intros m' Hm'. apply in_map_iff in Hm' as (m & <- & Hm). rewrite Forall_forall in HS. apply shaped_values; auto. }
  cbn [bdec]. intros c ch che k d de Hc Hce Hd Hde. rewrite map_map in Hce. rewrite nth_error_map in Hc, Hce.
  destruct (nth_error data c) as [m|] eqn:Em; [|discriminate]. inversion Hc; subst ch. inversion Hce; subst che.
  rewrite Forall_forall in HS, HB. pose proof (nth_error_In _ _ Em). apply (near32 m B k d de); auto.
Qed.
Lemma off_bound n B : 0 <= B -> (n <= passes p * nsteps p)%nat ->
  off u32 eta32 p n B <= (sqrt 2 * Q2R (coefficient_sum (wtype p))) ^ n * (INR n * INR (2 * taps p + 4) * (6 / 10 ^ 8) * B + / 2 ^ 135).
Proof.
  intros B0 Hn. pose proof (K62 p HA) as K. rewrite (K_nsteps p HA) in K.
  assert (N : (n <= 124)%nat) by (unfold passes in Hn; destruct (is_1d p); lia).
  pose proof (acc_type p HA) as W. unfold taps. set (t := wtype p) in *.
  assert (U : u32 = / 16777216) by reflexivity.
  unfold off, peak, peak_gain, peak_under. fold t. rewrite Rpow_mult_distr, <- pow_mult.
  set (S := (sqrt 2 * Q2R (coefficient_sum t)) ^ n).
  assert (S0 : 0 <= S) by (apply pow_le, Rmult_le_pos; [apply sqrt_pos|apply Q2R_sum_pos]).
  set (k := ((2 * Z.to_nat t + 4) * n)%nat).
  assert (NN : 0 <= INR k <= 2976).
  { split; [apply pos_INR|]. unfold k. rewrite INR_IZR_INZ. apply IZR_le. nia. }
  assert (P1 : (1 + u32) ^ k - 1 <= INR k * (6 / 10 ^ 8)).
  { destruct (Nat.eq_dec k 0) as [->|Hk]; [simpl; lra|].
    assert (X : INR k * u32 <= INR k * (596047 / 10 ^ 13)) by (apply Rmult_le_compat_l; [lra|rewrite U; lra]).
    pose proof (pow_bound u32 k (INR k * (596047 / 10 ^ 13)) ltac:(rewrite U; lra) X ltac:(lra)) as E.
    eapply Rle_trans; [exact E|].
    apply (Rmult_le_reg_r (1 - INR k * (596047 / 10 ^ 13))); [lra|]. unfold Rdiv at 1. rewrite Rmult_assoc, Rinv_l, Rmult_1_r by lra.
    assert (Q : INR k * (596047 / 10 ^ 13 - 6 / 10 ^ 8 * (1 - INR k * (596047 / 10 ^ 13))) <= 0); [|lra].
    assert (596047 / 10 ^ 13 - 6 / 10 ^ 8 * (1 - INR k * (596047 / 10 ^ 13)) <= 0) by lra. nra. }
  assert (P2 : (1 + u32) ^ (2 * Z.to_nat t) <= 2).
  { pose proof (u_pow (2 * Z.to_nat t) ltac:(lia)). lra. }
  assert (P0 : 1 <= (1 + u32) ^ (2 * Z.to_nat t)) by (apply pow_ge_1; rewrite U; lra).
  assert (P3 : 1 <= (1 + u32) ^ k) by (apply pow_ge_1; rewrite U; lra).
  assert (T10 : 0 <= INR (Z.to_nat t) <= 10). { split; [apply pos_INR|]. replace 10 with (INR 10) by (simpl; lra). apply le_INR. lia. }
  assert (N124 : 0 <= INR n <= 124). { split; [apply pos_INR|]. apply le_INR in N. rewrite (INR_IZR_INZ 124) in N. exact N. }
  assert (E0 : 0 <= eta32) by apply eta32_pos.
  assert (Q : 0 <= INR n * (4 * INR (Z.to_nat t) * (1 + u32) ^ (2 * Z.to_nat t) * eta32) <= / 2 ^ 136).
  { set (w := (1 + u32) ^ (2 * Z.to_nat t)) in *. set (a := INR n) in *. set (b := INR (Z.to_nat t)) in *.
    assert (Hbw : 0 <= b * w <= 20) by nra. assert (Habw : 0 <= a * (b * w) <= 2480) by nra.
    replace (a * (4 * b * w * eta32)) with (4 * (a * (b * w)) * eta32) by ring.
    split; [apply Rmult_le_pos; lra|].
    assert (E : eta32 = / 2 ^ 136 * / 2 ^ 14).
    { unfold eta32. rewrite <- Rinv_mult, <- pow_add. change (136 + 14)%nat with 150%nat. rewrite (pow_IZR 2 150). reflexivity. }
    assert (Q0 : 0 < / 2 ^ 136) by (apply Rinv_0_lt_compat, pow_lt; lra).
    rewrite E. set (c := / 2 ^ 136) in *. clearbody c.
    replace (4 * (a * (b * w)) * (c * / 2 ^ 14)) with (c * (4 * (a * (b * w)) * / 2 ^ 14)) by ring.
    rewrite <- (Rmult_1_r c) at 2. apply Rmult_le_compat_l; [lra|]. lra. }
  assert (EE : / 2 ^ 135 = 2 * / 2 ^ 136).
  { replace (2 ^ 136) with (2 * 2 ^ 135) by reflexivity. rewrite Rinv_mult. field. }
  assert (KK : INR k = INR n * INR (2 * Z.to_nat t + 4)) by (unfold k; rewrite mult_INR; ring). rewrite <- KK.
  rewrite EE. set (e := / 2 ^ 136) in *. clearbody e.
  set (q := INR n * (4 * INR (Z.to_nat t) * (1 + u32) ^ (2 * Z.to_nat t) * eta32)) in *. clearbody q.
  set (P := (1 + u32) ^ k) in *. clearbody P. set (m := INR k) in *. clearbody m.
  replace (S * P * (B + q) - S * B) with (S * ((P - 1) * B + P * q)) by ring.
  apply Rmult_le_compat_l; [exact S0|].
  assert ((P - 1) * B <= m * (6 / 10 ^ 8) * B) by (apply Rmult_le_compat_r; lra).
  assert (P * q <= 2 * e) by (assert (P <= 2) by lra; nra). lra.
Qed.

(** details of polynomial stretches *)
Lemma depth_detail s bb : (s < nsteps p)%nat -> (bb < bands p)%nat -> depth p (s * bands p + bb) = S s.
Proof.
  intros Hs Hb. unfold depth. rewrite Nat.div_add_l by lia. rewrite (Nat.div_small bb) by lia. lia.
Qed.
Theorem smooth32 (b : buffer f32) data B : @reachable f32 binary32 p b -> (1 <= signum p)%Z -> Z.of_nat (length data) = signum p ->
  Forall (shaped p) data -> 0 <= B <= 2 ^ 46 -> Forall (bounded B) data ->
  exists b', @decompose f32 binary32 b data null_denoiser = Ok (true, b') /\
  forall c m ch s d bb i j, nth_error data c = Some m -> nth_error (bdec b') c = Some ch -> (s < nsteps p)%nat -> (bb < bands p)%nat ->
    nth_error ch (s * bands p + bb) = Some d -> (i < level_rows p (S s))%nat -> (j < level_cols p (S s))%nat ->
    not_wrapped p (S s) i j ->
    polynomial_columns p (values m) (S s) i j /\ bb <> 1%nat \/ polynomial_rows p (values m) (S s) i j /\ bb <> 0%nat ->
    all_finite d /\ Rabs (at_ (values d) i j) <= leftover p (S s) * B + off u32 eta32 p (passes p * S s) B.
Proof.
  intros Hr Hsig HL HS B0 HB.
  eexists. split; [apply (@dec_okA f32 binary32 p HA b data); auto|].
  cbn [bdec]. intros c m ch s d bb i j Hm Hc Hs Hbb Hd Hi Hj NW PP.
  rewrite nth_error_map, Hm in Hc. inversion Hc; subst ch; clear Hc.
  rewrite Forall_forall in HS, HB. pose proof (nth_error_In _ _ Hm) as Hin. pose proof (HS m Hin) as HSm. pose proof (shaped_values p m HSm) as HSv.
  pose proof (dec_of_layout p HA (@null_denoiser R) (values m) null_keepsA : has_layout p (@dec_of p R exactR null_denoiser (values m))) as (L1 & _).
  destruct (nth_error (@dec_of p R exactR null_denoiser (values m)) (s * bands p + bb)) as [de|] eqn:Hde.
  2: { apply nth_error_None in Hde. rewrite L1 in Hde. nia. }
  destruct (near32 m B _ d de HSm B0 (HB m Hin) Hd Hde) as (Fd & Nd). split; [exact Fd|].
  rewrite (depth_detail s bb Hs Hbb) in Nd. specialize (Nd i j Hi Hj).
  assert (Bd : bounded_there p (values m) (S s) i j B).
  { intros r q _ _. pose proof (bounded_values B m (HB m Hin)) as BV.
    rewrite <- (padf_padded p HA (values m)) by apply HSv. apply (pad_bnd 0 0 exactR exact_rounding p (values m) B (proj1 B0) BV). }
  pose proof (smooth_one p HA (values m) s de bb i j B HSv Hs Hbb Hde Hi Hj NW (proj1 B0) Bd PP) as H.
  pose proof (Rabs_triang (at_ (values d) i j - at_ de i j) (at_ de i j)) as T.
  replace (at_ (values d) i j - at_ de i j + at_ de i j) with (at_ (values d) i j) in T by ring. lra.
Qed.
End F.
