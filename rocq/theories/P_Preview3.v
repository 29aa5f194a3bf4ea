(** * P_Preview3: the division by the factor, and what the bound amounts to. *)
Require Import List Bool Arith ZArith QArith Qreals Lia Reals Lra Psatz.
Require Import ZifyBool.
Require Import Flocq.Core.Core Flocq.IEEE754.BinarySingleNaN.
Require Import Verif.M_Base Verif.M_Params Verif.M_Buffer Verif.M_Float Verif.M_Binary32.
Require Import Verif.S_Params Verif.S_Buffer Verif.S_Exact Verif.S_Round Verif.S_Stable Verif.S_Preview.
Require Import Verif.P_Base Verif.P_Buffer Verif.P_Impl Verif.P_Api Verif.P_Float.
Require Import Verif.P_Sum Verif.P_L2 Verif.P_Exact Verif.P_Round2 Verif.P_Round3 Verif.P_Stable2.
Require Import Verif.P_Binary32 Verif.P_Bin2 Verif.P_Bin3 Verif.P_Preview Verif.P_Preview2.
Import ListNotations.
Open Scope R_scope.

Lemma narrow_big x : is_finite x = true -> Rabs (B2R x) <= bp 126 ->
  B2R (f32_of_f64 x) = r32 (B2R x) /\ is_finite (f32_of_f64 x) = true.
Proof.
  destruct x as [s|s| |s m e H]; try discriminate; intros _ Hx.
  - cbn [f32_of_f64 B2R]. rewrite round_0 by apply valid_rnd_round_mode. auto.
  - cbn [f32_of_f64].
    pose proof (binary_normalize_correct 24 128 _ _ mode_NE (cond_Zopp s (Zpos m)) e s) as N. cbv zeta in N.
    change (F2R _) with (B2R (B754_finite (prec := 53) (emax := 1024) s m e H)) in N.
    rewrite Rlt_bool_true in N; [tauto|].
    apply Rle_lt_trans with (bp 126); [|apply bpow_lt; lia].
    apply abs_round_le_generic; [apply FLT_exp_valid; reflexivity|apply valid_rnd_round_mode| |exact Hx].
    apply generic_format_bpow. unfold SpecFloat.fexp, SpecFloat.emin. lia.
Qed.

(** ** the factor *)
Section Factor.
Variables (dim : nat).
Let base : f64 := if Nat.eqb dim 2 then f64_of_int 2 else Bsqrt mode_NE (f64_of_int 2).
Let b : R := if Nat.eqb dim 2 then 2 else sqrt 2.
Let fac k : f64 := Nat.iter k (fun y => Bmult mode_NE y base) (f64_of_int 1).

Lemma b_bounds : 141 / 100 <= b <= 2.
Proof. pose proof sqrt2_bounds. unfold b. destruct (Nat.eqb dim 2); lra. Qed.
Lemma base_val : is_finite base = true /\ rel e64 (B2R base) b.
Proof.
  unfold base, b. destruct (val_int64 2 ltac:(lia)) as [V F].
  destruct (Nat.eqb dim 2).
  - split; auto. rewrite V. unfold rel. rewrite Rminus_diag_eq, Rabs_R0 by reflexivity.
    apply Rmult_le_pos; [apply e64_small|apply Rabs_pos].
  - destruct (Bsqrt_correct 53 1024 _ _ mode_NE (f64_of_int 2)) as (S1 & S2 & _). rewrite V in S1.
    split; auto. rewrite S1. apply r64_rel'. rewrite Rabs_pos_eq by apply sqrt_pos. pose proof sqrt2_bounds.
    apply Rle_trans with 1; [|lra]. change 1 with (bp 0). apply bpow_le. lia.
Qed.

Lemma bk_bounds k : 1 <= b ^ k <= 2 ^ k.
Proof.
  pose proof b_bounds. split; [apply pow_R1_Rle; lra|apply pow_incr; lra].
Qed.

Lemma fac_val k : (k <= 62)%nat -> is_finite (fac k) = true /\ rel (INR k * (4 * e64)) (B2R (fac k)) (b ^ k).
Proof.
  induction k; intros Hk.
  - unfold fac. cbn [Nat.iter nat_rect]. destruct (val_int64 1 ltac:(lia)) as [V F]. split; auto. rewrite V. unfold rel.
    cbn [pow INR]. rewrite Rminus_diag_eq, Rabs_R0 by reflexivity. lra.
  - destruct (IHk ltac:(lia)) as [FI RI]. destruct base_val as [FB RB].
    pose proof e64_small as E64. pose proof (bk_bounds k) as BK. pose proof b_bounds as BB.
    assert (IK : 0 <= INR k <= 62). { split; [apply pos_INR|]. assert (H : (k <= 62)%nat) by lia. apply le_INR in H. rewrite (INR_IZR_INZ 62) in H. exact H. }
    set (ek := INR k * (4 * e64)) in *.
    assert (EK : 0 <= ek <= 1 / 10 ^ 12) by (unfold ek; nra).
    assert (RP : rel (ek + e64 + ek * e64) (B2R (fac k) * B2R base) (b ^ k * b)).
    { apply (rel_trans ek e64 _ (b ^ k * B2R base)); [lra| |].
      - rewrite !(Rmult_comm _ (B2R base)). apply rel_mult. exact RI.
      - apply rel_mult. exact RB. }
    set (v := B2R (fac k) * B2R base) in *.
    assert (EP : 0 <= ek + e64 + ek * e64 <= 1 / 10 ^ 11) by nra.
    pose proof (rel_abs _ _ _ (proj1 EP) RP) as AV.
    assert (BV : 1 <= b ^ k * b <= bp 63).
    { pose proof (bk_bounds (S k)) as BS. cbn [pow] in BS. split; [nra|].
      rewrite Rmult_comm. eapply Rle_trans; [apply BS|].
      apply Rle_trans with (2 ^ 63); [exact (Rle_pow 2 (S k) 63 ltac:(lra) ltac:(lia))|].
      rewrite (pow_IZR 2 63). apply Rle_refl. }
    rewrite (Rabs_pos_eq (b ^ k * b)) in AV by lra.
    assert (AV1 : bp (-30) <= Rabs v).
    { apply Rle_trans with (bp (-1)); [apply bpow_le; lia|]. change (bp (-1)) with (/ 2). nra. }
    assert (AV2 : Rabs v <= bp 64).
    { change 64%Z with (1 + 63)%Z. rewrite bpow_plus. change (bp 1) with 2. nra. }
    pose proof (Bmult_correct 53 1024 _ _ mode_NE (fac k) base) as M. cbv zeta in M. fold v in M.
    rewrite Rlt_bool_true in M.
    2:{ apply Rle_lt_trans with (bp 64); [|apply bpow_lt; lia].
        apply abs_round_le_generic; [apply FLT_exp_valid; reflexivity|apply valid_rnd_round_mode| |exact AV2].
        apply generic_format_bpow. unfold SpecFloat.fexp, SpecFloat.emin. lia. }
    destruct M as (M1 & M2 & _). rewrite FI, FB in M2.
    change (fac (S k)) with (Bmult mode_NE (fac k) base). split; [exact M2|]. rewrite M1.
    pose proof (r64_rel' v AV1) as RV.
    pose proof (rel_trans _ _ _ _ _ (proj1 E64) RV RP) as RT.
    cbn [pow]. rewrite (Rmult_comm b). apply (rel_weak (e64 + (ek + e64 + ek * e64) + e64 * (ek + e64 + ek * e64))); [|exact RT].
    rewrite S_INR. replace ((INR k + 1) * (4 * e64)) with (ek + 4 * e64) by (unfold ek; ring).
    assert (ek * e64 <= 1 / 10 ^ 12 * e64) by (apply Rmult_le_compat_r; lra).
    assert (e64 * (ek + e64 + ek * e64) <= e64 * (1 / 10 ^ 11)) by (apply Rmult_le_compat_l; lra). lra.
Qed.

Lemma scale_val k (x : f32) : (k <= 62)%nat -> is_finite x = true -> Rabs (B2R x) <= bp 120 ->
  is_finite (f32_scale dim k x) = true /\
  Rabs (B2R (f32_scale dim k x) - B2R x / b ^ k) <= bp (-23) * Rabs (B2R x / b ^ k) + bp (-149).
Proof.
  intros Hk FX BX. destruct (fac_val k Hk) as [FF RF]. destruct (widen_val x FX) as [WV WF].
  pose proof e64_small as E64. pose proof (bk_bounds k) as BK.
  assert (IK : 0 <= INR k <= 62). { split; [apply pos_INR|]. apply le_INR in Hk. rewrite (INR_IZR_INZ 62) in Hk. exact Hk. }
  set (ek := INR k * (4 * e64)) in *. assert (EK : 0 <= ek <= 1 / 10 ^ 12) by (unfold ek; nra).
  unfold f32_scale. fold base. change (Nat.iter k (fun y => Bmult mode_NE y base) (f64_of_int 1)) with (fac k).
  set (F := B2R (fac k)) in *. set (f := b ^ k) in *. set (X := B2R x) in *.
  assert (F0 : 0 < f) by lra.
  assert (FR : Rabs (F - f) <= ek * f) by (unfold rel in RF; rewrite (Rabs_pos_eq f) in RF by lra; exact RF).
  assert (FB : (1 - ek) * f <= F <= (1 + ek) * f) by (apply Rabs_le_inv in FR; lra).
  assert (FP : 9 / 10 * f <= F) by nra. assert (FP0 : 0 < F) by nra.
  (* the quotient by the computed factor *)
  assert (Q1 : Rabs (X / F - X / f) <= 2 * ek * Rabs (X / f)).
  { replace (X / F - X / f) with (X / f * ((f - F) / F)) by (field; lra).
    rewrite Rabs_mult, Rmult_comm. apply Rmult_le_compat_r; [apply Rabs_pos|].
    unfold Rdiv. rewrite Rabs_mult, (Rabs_pos_eq (/ F)) by (apply Rlt_le, Rinv_0_lt_compat; auto).
    apply (Rmult_le_reg_r F); auto. rewrite Rmult_assoc, Rinv_l, Rmult_1_r by lra.
    rewrite Rabs_minus_sym. eapply Rle_trans; [exact FR|]. nra. }
  assert (Q2 : Rabs (X / F) <= 11 / 10 * Rabs (X / f)).
  { replace (X / F) with (X / f + (X / F - X / f)) by ring. eapply Rle_trans; [apply Rabs_triang|].
    pose proof (Rabs_pos (X / f)). nra. }
  assert (Q3 : Rabs (X / f) <= bp 120).
  { unfold Rdiv. rewrite Rabs_mult, (Rabs_pos_eq (/ f)) by (apply Rlt_le, Rinv_0_lt_compat; auto).
    assert (/ f <= 1) by (rewrite <- Rinv_1; apply Rinv_le_contravar; lra).
    assert (0 < / f) by (apply Rinv_0_lt_compat; auto). pose proof (Rabs_pos X). nra. }
  assert (Q4 : Rabs (X / F) <= bp 121).
  { change 121%Z with (1 + 120)%Z. rewrite bpow_plus. change (bp 1) with 2. pose proof (bp_pos 120). lra. }
  pose proof (Bdiv_correct 53 1024 _ _ mode_NE (f64_of_f32 x) (fac k)) as D. cbv zeta in D. fold F in D. rewrite WV in D. fold X in D.
  specialize (D ltac:(lra)).
  assert (Q5 : Rabs (r64 (X / F)) <= bp 121).
  { apply abs_round_le_generic; [apply FLT_exp_valid; reflexivity|apply valid_rnd_round_mode| |exact Q4].
    apply generic_format_bpow. unfold SpecFloat.fexp, SpecFloat.emin. lia. }
  rewrite Rlt_bool_true in D by (eapply Rle_lt_trans; [exact Q5|apply bpow_lt; lia]).
  destruct D as (D1 & D2 & _). rewrite WF in D2.
  destruct (narrow_big (Bdiv mode_NE (f64_of_f32 x) (fac k)) D2) as [N1 N2].
  { rewrite D1. eapply Rle_trans; [exact Q5|apply bpow_le; lia]. }
  split; [exact N2|]. rewrite N1, D1.
  pose proof (r64_total (X / F)) as T64. pose proof (r32_total (r64 (X / F))) as T32. unfold u32, eta32 in T32.
  set (q := r64 (X / F)) in *. set (Z := X / F) in *. set (w := X / f) in *.
  assert (QQ : Rabs q <= Rabs Z + (bp (-53) * Rabs Z + bp (-1075))).
  { replace q with (Z + (q - Z)) by ring. eapply Rle_trans; [apply Rabs_triang|]. lra. }
  replace (r32 q - w) with ((r32 q - q) + ((q - Z) + (Z - w))) by ring.
  eapply Rle_trans; [apply Rabs_triang|]. eapply Rle_trans; [apply Rplus_le_compat_l, Rabs_triang|].
  assert (P1 : bp (-23) = 2 * bp (-24)) by (change (-23)%Z with (1 + -24)%Z; rewrite bpow_plus; reflexivity).
  assert (P2 : bp (-149) = 2 * bp (-150)) by (change (-149)%Z with (1 + -150)%Z; rewrite bpow_plus; reflexivity).
  assert (P3 : bp (-1075) <= bp (-150) / 4).
  { apply Rle_trans with (bp (-152)); [apply bpow_le; lia|]. change (-150)%Z with (2 + -152)%Z. rewrite bpow_plus. change (bp 2) with 4. lra. }
  assert (P4 : bp (-53) <= bp (-24) / 100).
  { apply Rle_trans with (bp (-31)); [apply bpow_le; lia|]. change (-24)%Z with (7 + -31)%Z. rewrite bpow_plus. change (bp 7) with 128.
    pose proof (bp_pos (-31)). lra. }
  assert (P5 : ek <= bp (-24) / 100).
  { apply Rle_trans with (1 / 10 ^ 12); [lra|]. cbn [bpow]. simpl. lra. }
  assert (P6 : 0 < bp (-24) <= 1 / 100) by (split; [apply bp_pos|cbn [bpow]; simpl; lra]).
  pose proof (bp_pos (-53)). pose proof (bp_pos (-1075)). pose proof (bp_pos (-150)).
  pose proof (Rabs_pos w) as W0. pose proof (Rabs_pos Z) as Z0.
  set (aw := Rabs w) in *. set (aZ := Rabs Z) in *. set (u := bp (-24)) in *. set (h := bp (-150)) in *. set (t := bp (-53)) in *. set (s := bp (-1075)) in *.
  assert (A1 : t * aZ <= u / 100 * (11 / 10 * aw)) by (apply Rmult_le_compat; lra).
  assert (A2 : u * Rabs q <= u * (aZ + (t * aZ + s))) by (apply Rmult_le_compat_l; lra).
  assert (A3 : u * aZ <= u * (11 / 10 * aw)) by (apply Rmult_le_compat_l; lra).
  assert (A4 : u * (t * aZ) <= 1 / 100 * (u / 100 * (11 / 10 * aw))).
  { apply Rmult_le_compat; try lra. apply Rmult_le_pos; lra. }
  assert (A5 : u * s <= 1 / 100 * (h / 4)) by (apply Rmult_le_compat; lra).
  assert (A6 : 2 * ek * aw <= 2 * (u / 100) * aw) by (apply Rmult_le_compat_r; lra).
  assert (A7 : 0 <= u * aw) by (apply Rmult_le_pos; lra).
  rewrite P1, P2. lra.
Qed.
End Factor.

Lemma bp_inv n : bp (- Z.of_nat n) = / 2 ^ n.
Proof.
  rewrite bpow_opp. f_equal. rewrite <- IZR_Zpower by lia. rewrite pow_IZR. reflexivity.
Qed.

Theorem scale_divides32 p k : accepted p -> (k <= nsteps p)%nat -> divides32 f32_scale p k.
Proof.
  intros HA Hk x FX BX.
  assert (K : (k <= 62)%nat) by (pose proof (K62 p HA) as K; rewrite (K_nsteps p HA) in K; lia).
  assert (B120 : Rabs (B2R x) <= bp 120).
  { eapply Rle_trans; [exact BX|]. rewrite (pow_IZR 2 120). apply Rle_refl. }
  destruct (scale_val (length (shape p)) k x K FX B120) as [H1 H2].
  split; auto. rewrite <- (bp_inv 23), <- (bp_inv 149). unfold factor.
  replace (if is_1d p then sqrt 2 else 2) with (if Nat.eqb (length (shape p)) 2 then 2 else sqrt 2); [exact H2|].
  unfold is_1d. destruct (acc_cases p HA) as [(n & E & _)|(w & h & E & _)]; rewrite E; reflexivity.
Qed.

(** ** the bound *)
Theorem preview_bound_small p k n : accepted p -> (k <= nsteps p)%nat -> 0 <= n ->
  preview_bound u32 eta32 (/ 2 ^ 23) (/ 2 ^ 149) p k n <=
  (INR (passes p * nsteps p) * (75 / 10 ^ 7) + / 10 ^ 6) * n / factor p k + INR (nsteps p + 1) / 2 ^ 73.
Proof.
  intros HA Hk Hn. unfold preview_bound. pose proof (factor_pos p k) as FP.
  destruct (float_bounds p HA) as [F U].
  rewrite <- (bp_inv 23), <- (bp_inv 149).
  change (- Z.of_nat 23)%Z with (-23)%Z. change (- Z.of_nat 149)%Z with (-149)%Z.
  set (f := factor p k) in *. set (un := underflow u32 eta32 p) in *.
  assert (FG : 1 <= f).
  { unfold f, factor. apply pow_R1_Rle. pose proof sqrt2_bounds. destruct (is_1d p); lra. }
  assert (U0 : 0 <= un).
  { unfold un. rewrite (underflow_kap u32 eta32 p HA). pose proof (kap_0 u32 eta32 u32_pos eta32_pos (geom_of p)).
    pose proof (pos_INR (gK (geom_of p))). pose proof (stepg_1 u32 u32_pos (geom_of p)).
    apply Rmult_le_pos; auto. apply Rmult_le_pos; [lra|]. apply pow_le. lra. }
  assert (S1 : 1 <= step_gain u32 p).
  { rewrite <- (stepg_gain u32 p HA). apply (stepg_1 u32 u32_pos). }
  assert (G1 : 1 <= (1 + Q2R (filter_defect (wtype p))) ^ (passes p * k)).
  { rewrite <- step_gain_0. apply pow_R1_Rle. rewrite <- (stepg_gain 0 p HA). apply (stepg_1 0 (Rle_refl 0)). }
  set (gk := (1 + _) ^ (passes p * k)) in *.
  assert (A1 : step_gain u32 p ^ (2 * nsteps p - k) <= 1 + float_rel u32 p).
  { unfold float_rel. replace (1 + (step_gain u32 p ^ (2 * nsteps p) - 1)) with (step_gain u32 p ^ (2 * nsteps p)) by ring.
    apply Rle_pow; auto. lia. }
  set (ak := step_gain u32 p ^ (2 * nsteps p - k)) in *. set (rl := float_rel u32 p) in *.
  assert (K : (nsteps p <= 62)%nat) by (pose proof (K62 p HA) as K; rewrite (K_nsteps p HA) in K; lia).
  assert (IP : INR (passes p * nsteps p) <= 124).
  { assert (H : (passes p * nsteps p <= 124)%nat) by (unfold passes; destruct (is_1d p); lia).
    apply le_INR in H. rewrite (INR_IZR_INZ 124) in H. exact H. }
  assert (AK : 0 <= ak <= 2) by (split; [apply pow_le; lra|lra]).
  assert (P23 : 0 <= bp (-23) <= / 10 ^ 6 / 4) by (split; [apply Rlt_le, bp_pos|cbn [bpow]; simpl; lra]).
  (* area *)
  assert (AR : sqrt (INR (small_rows p k * small_cols p k)) <= bp 64).
  { pose proof (area_bound p HA) as AB. rewrite (hs_level p HA), (ws_level p HA) in AB.
    eapply Rle_trans; [|exact AB]. apply sqrt_le_1_alt, le_INR. apply Nat.mul_le_mono.
    - unfold small_rows. eapply Nat.le_trans; [apply (Nat.div_le_upper_bound (drows p) (2 ^ k) (drows p)); [apply Nat.pow_nonzero; lia|]|].
      + assert (1 <= 2 ^ k)%nat by (apply Nat.neq_0_lt_0, Nat.pow_nonzero; lia). nia.
      + rewrite <- crows_0. apply fit_r; auto.
    - unfold small_cols. pose proof (fit_c p HA 0) as FC. rewrite ccols_0 in FC.
      unfold level_cols in *. destruct (is_1d p) eqn:E1; [lia|].
      eapply Nat.le_trans; [|exact FC]. apply Nat.div_le_upper_bound; [apply Nat.pow_nonzero; lia|].
      assert (1 <= 2 ^ k)%nat by (apply Nat.neq_0_lt_0, Nat.pow_nonzero; lia). nia. }
  assert (E149 : bp (-149) * sqrt (INR (small_rows p k * small_cols p k)) <= bp (-85)).
  { apply Rle_trans with (bp (-149) * bp 64); [apply Rmult_le_compat_l; [apply Rlt_le, bp_pos|exact AR]|].
    rewrite <- bpow_plus. apply Rle_refl. }
  (* the middle *)
  set (C := INR (passes p * nsteps p) * (75 / 10 ^ 7)) in *.
  assert (M : (1 + bp (-23)) * (ak * n + un) - gk * n <= (C + / 10 ^ 6) * n + 2 * un).
  { assert (bp (-23) * un <= 1 * un) by (apply Rmult_le_compat_r; lra).
    assert (bp (-23) * (ak * n) <= / 10 ^ 6 * n).
    { rewrite <- Rmult_assoc. apply Rmult_le_compat_r; auto.
      apply Rle_trans with (/ 10 ^ 6 / 4 * 2); [apply Rmult_le_compat; lra|lra]. }
    assert (ak * n <= (1 + C) * n) by (apply Rmult_le_compat_r; lra).
    assert (1 * n <= gk * n) by (apply Rmult_le_compat_r; lra). lra. }
  assert (I1 : 0 < / f <= 1).
  { split; [apply Rinv_0_lt_compat; lra|]. rewrite <- Rinv_1. apply Rinv_le_contravar; lra. }
  assert (M2 : ((1 + bp (-23)) * (ak * n + un) - gk * n) / f <= (C + / 10 ^ 6) * n / f + 2 * un).
  { unfold Rdiv. eapply Rle_trans; [apply Rmult_le_compat_r; [lra|exact M]|].
    rewrite Rmult_plus_distr_r. apply Rplus_le_compat_l. rewrite <- (Rmult_1_r (2 * un)) at 2. apply Rmult_le_compat_l; lra. }
  assert (UU : 2 * un + bp (-85) <= INR (nsteps p + 1) / 2 ^ 73).
  { rewrite plus_INR. simpl (INR 1). unfold Rdiv. rewrite <- (bp_inv 73).
    assert (P74 : / 2 ^ 74 = bp (-73) / 2).
    { rewrite <- (bp_inv 74). change (- Z.of_nat 73)%Z with (1 + -74)%Z. change (- Z.of_nat 74)%Z with (-74)%Z.
      change (-73)%Z with (1 + -74)%Z. rewrite bpow_plus. change (bp 1) with 2. field. }
    unfold Rdiv in U. rewrite P74 in U. change (- Z.of_nat 73)%Z with (-73)%Z.
    assert (bp (-85) <= bp (-73)) by (apply bpow_le; lia). lra. }
  clear - M2 UU E149. lra.
Qed.

(** ** DB1: means of blocks *)
Require Import Verif.M_Real.
Lemma preview_exact_db1 p k n : wtype p = 1%Z -> preview_bound 0 0 0 0 p k n = 0.
Proof.
  intros H. unfold preview_bound. rewrite underflow_0. rewrite step_gain_0, H.
  change (filter_defect 1) with 0%Q. rewrite RMicromega.Q2R_0. rewrite Rplus_0_r, !pow1. unfold Rdiv. ring.
Qed.
Lemma exact_divides p k : accepted p -> divides 0 0 exactR p k.
Proof.
  intros HA x. cbn [ascale exactR]. unfold factor, is_1d.
  destruct (acc_cases p HA) as [(n & E & _)|(w & h & E & _)]; rewrite E; cbn [length Nat.eqb];
    rewrite Rminus_diag_eq, Rabs_R0 by reflexivity; lra.
Qed.
Lemma preview_error_0 p k o a : preview_error p k o a = 0 ->
  forall i j, (i < small_rows p k)%nat -> (j < small_cols p k)%nat ->
    at_ o i j = at_ a (small_row p k i) (small_col p k j) / factor p k.
Proof.
  intros H i j Hi Hj.
  pose proof (nrm_zero_inv (small_rows p k) (small_cols p k)
    (fun i j => at_ o i j - at_ a (small_row p k i) (small_col p k j) / factor p k) H i j Hi Hj) as E. cbv beta in E. lra.
Qed.
Lemma preview_error_pos p k o a : 0 <= preview_error p k o a.
Proof. apply sqrt_pos. Qed.
Lemma approx_block p k m a : accepted p -> (k <= nsteps p)%nat -> wtype p = 1%Z -> shaped p m ->
  (forall i j, (i < level_rows p k)%nat -> (j < level_cols p k)%nat ->
     at_ a i j = @ap R exactR (geom_of p) (@padf p R exactR m) k i j) ->
  forall i j, (i < small_rows p k)%nat -> (j < small_cols p k)%nat ->
    at_ a (small_row p k i) (small_col p k j) / factor p k = block_mean p m k (small_row p k i) (small_col p k j).
Proof.
  intros HA Hk Ht HS Ha i j Hi Hj.
  pose proof (preview_close 0 0 0 0 exactR exact_rounding (Rle_refl 0) (Rle_refl 0) (Rle_refl 0) (Rle_refl 0) p HA k Hk m a
    (fun _ => exact_divides p k HA) HS Ha) as H.
  rewrite preview_exact_db1 in H by auto.
  assert (H0 := Rle_antisym _ _ H (preview_error_pos p k _ a)).
  rewrite <- (preview_error_0 p k _ a H0 i j Hi Hj).
  rewrite (com_block p HA m k Ht HS Hk).
  change (crows p k) with (small_rows p k). change (ccols p k) with (small_cols p k).
  rewrite at_mk by auto. reflexivity.
Qed.

Theorem means_binary32 (sc : nat -> nat -> f32 -> f32) p k (b : buffer f32) data :
  wtype p = 1%Z -> divides32 sc p k ->
  accepted p -> Forall (fun n => n <= 2 ^ 62)%Z (shape p) -> (k <= nsteps p)%nat ->
  @reachable f32 (with_division sc) p b ->
  (1 <= signum p)%Z -> Z.of_nat (length data) = signum p -> Forall (shaped p) data ->
  Forall all_finite data -> Forall (fun m => padded_energy p (values m) <= 2 ^ 220) data ->
  exists b' out, @decompose f32 (with_division sc) b data null_denoiser = Ok (true, b') /\
    @compose f32 (with_division sc) b' (Z.of_nat k) = Ok (true, out) /\ length out = length data /\
    forall c m o, nth_error data c = Some m -> nth_error out c = Some o ->
        sized (small_rows p k) (small_cols p k) o /\ all_finite o /\
        sqrt (total (small_rows p k) (fun i => total (small_cols p k) (fun j =>
          (at_ (values o) i j - block_mean p (values m) k (small_row p k i) (small_col p k j)) *
          (at_ (values o) i j - block_mean p (values m) k (small_row p k i) (small_col p k j))))) <=
          (INR (passes p * nsteps p) * (75 / 10 ^ 7) + / 10 ^ 6) * sqrt (padded_energy p (values m)) / factor p k
          + INR (nsteps p + 1) / 2 ^ 73.
Proof.
  intros Ht HD HA H62 Hk Hr Hsig HL HS HF HE.
  pose proof (coarse_accepted p k HA H62 Hk) as HQ.
  eexists _, _. split; [apply (@dec_okA f32 (with_division sc) p HA b data); auto|].
  split; [apply (@com_okA f32 (with_division sc) p HA data k); auto|].
  rewrite map_length. split; auto. intros c m o Hm Ho. rewrite nth_error_map, Hm in Ho. cbn [option_map] in Ho. injection Ho as <-.
  apply nth_error_In in Hm as Hin. rewrite Forall_forall in HS, HF, HE.
  assert (HSv : shaped p (values m)).
  { destruct (HS m Hin) as (W & Rm & Cm). split; [|split; auto].
    unfold mwf, values; cbn [rows cols elts]. rewrite map_length. exact W. }
  destruct (coarse_approx p HA k Hk HQ (values m) HSv) as (aa & Ha & Hsz & Hel).
  destruct (preview32 sc p HA k Hk (fun _ => HD) m (HS m Hin) (HF m Hin) (HE m Hin) aa Hel) as (S1 & S2 & S3).
  split; auto. split; auto. eapply Rle_trans; [|apply preview_bound_small; auto; apply sqrt_pos].
  eapply Rle_trans; [|exact S3]. apply Req_le. unfold preview_error. f_equal.
  apply rsum_ext. intros i Hi. apply rsum_ext. intros j Hj.
  rewrite (approx_block p k (values m) aa) by auto. reflexivity.
Qed.
