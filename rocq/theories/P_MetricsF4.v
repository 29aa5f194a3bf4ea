(** * P_MetricsF4: Distance in floats, accuracy. *)
Require Import List Bool Arith ZArith Lia Reals Lra Permutation.
Require Import ZifyBool.
Require Import Flocq.Core.Core Flocq.Prop.Relative Flocq.Prop.Plus_error Flocq.IEEE754.BinarySingleNaN.
Require Import Verif.M_Base Verif.M_Params Verif.M_Buffer Verif.M_Float Verif.M_Binary32 Verif.M_Metrics Verif.M_MetricsF.
Require Import Verif.S_Buffer Verif.S_Metrics Verif.S_MetricsF Verif.P_Base Verif.P_Buffer Verif.P_Float Verif.P_SfFloat Verif.P_Binary32 Verif.P_Preview3.
Require Import Verif.P_Metrics Verif.P_MetricsF Verif.P_MetricsF2 Verif.P_MetricsF3.
Import ListNotations.
Open Scope R_scope.

Lemma r32_0 : r32 0 = 0. Proof. apply round_0. apply valid_rnd_round_mode. Qed.
Lemma r32_mono x y : x <= y -> r32 x <= r32 y.
Proof. intros. apply round_le; [apply fexp_correct; reflexivity|apply valid_rnd_round_mode|auto]. Qed.
Lemma r32_nonneg x : 0 <= x -> 0 <= r32 x.
Proof. intros. rewrite <- r32_0. apply r32_mono; auto. Qed.
Lemma u32_pos : 0 < u32. Proof. apply bp_pos. Qed.
Lemma eta32_pos : 0 < eta32. Proof. apply bp_pos. Qed.

(** ** one difference *)
Lemma minus_rel (x y : f32) : Rabs (r32 (B2R x - B2R y) - (B2R x - B2R y)) <= u32 * Rabs (B2R x - B2R y).
Proof.
  destruct (FLT_plus_error_N_ex radix2 (-149) 24 (fun z => negb (Z.even z)) (B2R x) (- B2R y)) as (e & B & E).
  { apply (generic_format_B2R 24 128). }
  { apply generic_format_opp. apply (generic_format_B2R 24 128). }
  change (round radix2 _ _ (B2R x + - B2R y)) with (r32 (B2R x - B2R y)) in E. fold (B2R x - B2R y) in E. rewrite E.
  set (z := B2R x - B2R y). replace (z * (1 + e) - z) with (e * z) by ring.
  rewrite Rabs_mult. apply Rmult_le_compat_r; [apply Rabs_pos|].
  eapply Rle_trans; [exact B|]. unfold u_ro.
  replace (/ 2 * bp (- (24) + 1)) with u32.
  2: { unfold u32. rewrite (bpow_plus radix2 (- (24)) 1). change (- (24))%Z with (-24)%Z. change (bp 1) with 2. lra. }
  pose proof u32_pos. apply Rmult_le_reg_r with (1 + u32); [lra|]. unfold Rdiv. rewrite Rmult_assoc, Rinv_l by lra. nra.
Qed.

Lemma sq_rel u r z : 0 <= u <= 1 -> Rabs (r - z) <= u * Rabs z -> app ((1 + u) * (1 + u)) 0 (r * r) (z * z).
Proof.
  intros U H. split; [apply Rle_0_sqr|].
  replace (r * r - z * z) with ((r - z) * (r - z) + 2 * z * (r - z)) by ring.
  eapply Rle_trans; [apply Rabs_triang|]. rewrite !Rabs_mult, (Rabs_pos_eq 2) by lra.
  replace (z * z) with (Rabs z * Rabs z) by (rewrite <- Rabs_mult; apply Rabs_pos_eq, Rle_0_sqr).
  pose proof (Rabs_pos z). pose proof (Rabs_pos (r - z)). set (a := Rabs z) in *. set (d := Rabs (r - z)) in *. nra.
Qed.

Lemma diff_sq (x y : f32) : is_finite x = true -> is_finite y = true ->
  (B2R x - B2R y) * (B2R x - B2R y) <= bp 120 ->
  let q := sq32 (Bminus mode_NE x y) in
  is_finite q = true /\ 0 <= B2R q /\
  app ((1 + u32) ^ 3) eta32 (B2R q) ((B2R x - B2R y) * (B2R x - B2R y)).
Proof.
  intros Fx Fy L. cbv zeta. set (z := B2R x - B2R y) in *.
  assert (US := u32_small). assert (UP := u32_pos).
  assert (LZ : Rabs z <= bp 60).
  { apply Rsqr_incr_0_var; [|apply Rlt_le, bp_pos]. rewrite <- Rsqr_abs. unfold Rsqr. rewrite <- bpow_plus. exact L. }
  pose proof (minus_rel x y) as M. fold z in M.
  assert (LR : Rabs (r32 z) <= bp 61).
  { replace (r32 z) with ((r32 z - z) + z) by ring. eapply Rle_trans; [apply Rabs_triang|].
    change 61%Z with (1 + 60)%Z. rewrite bpow_plus. change (bp 1) with 2.
    assert (u32 * Rabs z <= 1 * Rabs z) by (apply Rmult_le_compat_r; [apply Rabs_pos|lra]). lra. }
  pose proof (Bminus_correct 24 128 _ _ mode_NE x y Fx Fy) as C. fold z in C. fold (r32 z) in C.
  rewrite Rlt_bool_true in C. 2: { eapply Rle_lt_trans; [exact LR|]. apply bpow_lt. lia. }
  destruct C as (V & F & _). set (d := Bminus mode_NE x y) in *.
  assert (SQ := sq_rel u32 (r32 z) z ltac:(lra) M).
  assert (S0 : 0 <= r32 z * r32 z) by apply Rle_0_sqr.
  assert (SL : r32 z * r32 z <= bp 122).
  { rewrite <- (Rabs_pos_eq (r32 z * r32 z)) by auto. rewrite Rabs_mult. change 122%Z with (61 + 61)%Z. rewrite bpow_plus.
    apply Rmult_le_compat; auto; apply Rabs_pos. }
  pose proof (Bmult_correct 24 128 _ _ mode_NE d d) as C. rewrite V in C. fold (r32 (r32 z * r32 z)) in C.
  pose proof (r32_total (r32 z * r32 z)) as T. rewrite (Rabs_pos_eq (r32 z * r32 z)) in T by auto.
  assert (ET : eta32 <= 1) by (unfold eta32; change 1 with (bp 0); apply bpow_le; lia).
  assert (RN := r32_nonneg _ S0).
  rewrite Rlt_bool_true in C.
  2: { rewrite Rabs_pos_eq by auto. apply Rabs_le_inv in T.
       apply Rle_lt_trans with (2 * bp 122 + 1); [nra|].
       apply Rle_lt_trans with (bp 124); [|apply bpow_lt; lia].
       change 124%Z with (2 + 122)%Z. rewrite bpow_plus. change (bp 2) with 4.
       assert (1 <= bp 122) by (change 1 with (bp 0); apply bpow_le; lia). lra. }
  destruct C as (V2 & F2 & _). rewrite F in F2. fold (sq32 d) in V2, F2. rewrite V2, F2.
  split; auto. split; auto.
  assert (T' : app (1 + u32) eta32 (r32 (r32 z * r32 z)) (r32 z * r32 z)) by (split; auto; lra).
  assert (H1 : 1 <= (1 + u32) * (1 + u32)) by nra. assert (H2 : 1 <= 1 + u32) by lra.
  pose proof (app_trans _ _ _ _ _ _ _ H1 H2 (Rle_refl 0) SQ T') as Q.
  eapply app_weak; [| |exact Q]; [|lra]. simpl. lra.
Qed.

(** ** the squares of a subband *)
Definition bdiff (b a : mat f32) : list R := map (fun u : f32 * f32 => (B2R (fst u) - B2R (snd u)) * (B2R (fst u) - B2R (snd u))) (combine (elts b) (elts a)).

Lemma squares_app (l : list (f32 * f32)) :
  Forall (fun u : f32 * f32 => is_finite (fst u) = true /\ is_finite (snd u) = true) l ->
  let e := map (fun u : f32 * f32 => (B2R (fst u) - B2R (snd u)) * (B2R (fst u) - B2R (snd u))) l in
  let q := map (fun u => sq32 (Bminus mode_NE (fst u) (snd u))) l in
  rsum e <= bp 120 ->
  Forall (fun x : f32 => is_finite x = true /\ 0 <= B2R x) q /\
  app ((1 + u32) ^ 3) (INR (length l) * eta32) (rsum (map (fun x : f32 => B2R x) q)) (rsum e).
Proof.
  cbv zeta. induction 1 as [|[x y] l [Fx Fy] _ IH]; intros L.
  - split; constructor; unfold rsum; simpl; [lra|]. rewrite Rminus_0_r, Rabs_R0. lra.
  - cbn [map fst snd] in *. unfold rsum in L; cbn [fold_right] in L. fold (rsum (map (fun u : f32 * f32 => (B2R (fst u) - B2R (snd u)) * (B2R (fst u) - B2R (snd u))) l)) in L.
    assert (P : 0 <= rsum (map (fun u : f32 * f32 => (B2R (fst u) - B2R (snd u)) * (B2R (fst u) - B2R (snd u))) l)).
    { apply rsum_nonneg. apply Forall_map. apply Forall_forall. intros. apply Rle_0_sqr. }
    assert (P' : 0 <= (B2R x - B2R y) * (B2R x - B2R y)) by apply Rle_0_sqr.
    destruct IH as [A B]; [lra|]. destruct (diff_sq x y Fx Fy) as (Q1 & Q2 & Q3); [lra|].
    split; [constructor; auto|]. unfold rsum; cbn [fold_right length]. rewrite S_INR.
    replace ((INR (length l) + 1) * eta32) with (eta32 + INR (length l) * eta32) by ring. apply app_plus; auto.
Qed.

(** ** the norm and its square *)
Lemma sqrt_rel (s : f32) : is_finite s = true -> 0 <= B2R s ->
  is_finite (Bsqrt mode_NE s) = true /\
  Rabs (B2R (Bsqrt mode_NE s) - sqrt (B2R s)) <= u32 * Rabs (sqrt (B2R s)).
Proof.
  intros F P. destruct (Bsqrt_correct 24 128 _ _ mode_NE s) as (V & FF & _).
  assert (P0 := sqrt_pos (B2R s)).
  destruct s as [c|c| |c m e H]; try discriminate.
  - split; [exact FF|]. rewrite V. cbn [B2R]. rewrite sqrt_0, round_0 by apply valid_rnd_round_mode.
    rewrite Rminus_0_r, Rabs_R0. lra.
  - destruct c.
    { exfalso. cbn [B2R cond_Zopp] in P. pose proof (F2R_lt_0 radix2 (Float radix2 (Z.neg m) e) eq_refl) as N.
      change (Z.opp (Z.pos m)) with (Z.neg m) in P. lra. }
    split; [exact FF|]. rewrite V. set (X := B754_finite false m e H) in *.
    assert (L : bp (-149) <= B2R X).
    { rewrite <- (Rabs_pos_eq (B2R X)) by auto. apply (abs_B2R_ge_emin 24 128 X). reflexivity. }
    assert (LS : bp (-75) <= sqrt (B2R X)).
    { apply Rsqr_incr_0_var; [|auto]. rewrite Rsqr_sqrt by auto. unfold Rsqr. rewrite <- bpow_plus.
      eapply Rle_trans; [|exact L]. apply bpow_le. lia. }
    pose proof (relative_error_N_FLT radix2 (-149) 24 eq_refl (fun z => negb (Z.even z)) (sqrt (B2R X))) as R.
    specialize (R ltac:(rewrite Rabs_pos_eq by auto; eapply Rle_trans; [|exact LS]; apply bpow_le; lia)).
    eapply Rle_trans; [exact R|]. apply Rmult_le_compat_r; [apply Rabs_pos|].
    unfold u32. change (/ 2) with (bp (-1)). rewrite <- bpow_plus. apply bpow_le. lia.
Qed.

Lemma pow2_bound N : (Z.of_nat N <= 2 ^ 22)%Z -> 1 <= (1 + u32) ^ N <= 2.
Proof.
  intros H. assert (UP := u32_pos). assert (NB := INR_bound N 22 H ltac:(lia)).
  assert (B : INR N * u32 <= / 4).
  { apply Rle_trans with (bp 22 * u32); [apply Rmult_le_compat_r; lra|]. unfold u32. rewrite <- bpow_plus.
    change (/ 4) with (bp (-2)). apply bpow_le. lia. }
  destruct (growth u32 N) as [A C]; try lra.
Qed.

Lemma combine_finite (a b : mat f32) : finite_mat a -> finite_mat b ->
  Forall (fun u : f32 * f32 => is_finite (fst u) = true /\ is_finite (snd u) = true) (combine (elts b) (elts a)).
Proof.
  unfold finite_mat. intros Ha Hb. apply Forall_forall. intros [x y] Hi.
  rewrite Forall_forall in Ha, Hb. split; [apply Hb; eapply in_combine_l|apply Ha; eapply in_combine_r]; eauto.
Qed.

Lemma term_app sum square (a b : mat f32) N : summation32 sum -> good_square square -> finite_mat a -> finite_mat b ->
  (Z.of_nat (N + 8) <= 2 ^ 22)%Z -> (length (elts b) <= N)%nat -> rsum (bdiff b a) <= bp 120 ->
  let t := term32 sum square (a, b) in
  is_finite t = true /\ 0 <= B2R t /\
  app ((1 + u32) ^ (N + 6)) (2 * INR (length (elts b)) * eta32) (B2R t) (rsum (bdiff b a)).
Proof.
  intros HS HQ Fa Fb HN HL HD. cbv zeta. set (l := combine (elts b) (elts a)).
  assert (CF := combine_finite a b Fa Fb). fold l in CF.
  destruct (squares_app l CF HD) as [QF QA].
  assert (UP := u32_pos). assert (US := u32_small). assert (EP := eta32_pos).
  assert (ET : eta32 <= bp (-22)) by (unfold eta32; apply bpow_le; lia).
  assert (LN : (length l <= length (elts b))%nat) by (unfold l; rewrite combine_length; lia).
  unfold term32, mnorm32, diff32. cbn [fst snd elts]. rewrite map_map.
  change (fun x : f32 * f32 => Bmult mode_NE (Bminus mode_NE (fst x) (snd x)) (Bminus mode_NE (fst x) (snd x)))
    with (fun u : f32 * f32 => sq32 (Bminus mode_NE (fst u) (snd u))). fold l.
  set (q := map (fun u : f32 * f32 => sq32 (Bminus mode_NE (fst u) (snd u))) l) in *.
  assert (LQ : length q = length l) by (unfold q; apply map_length).
  change (map (fun u : f32 * f32 => (B2R (fst u) - B2R (snd u)) * (B2R (fst u) - B2R (snd u))) l) with (bdiff b a) in QA.
  set (D := rsum (bdiff b a)) in *. assert (D0 : 0 <= D) by apply QA.
  assert (NB := INR_bound (length l) 22 ltac:(lia) ltac:(lia)). assert (N0 := pos_INR (length l)).
  assert (NE : INR (length l) * eta32 <= 1).
  { apply Rle_trans with (bp 22 * bp (-22)); [apply Rmult_le_compat; lra|]. rewrite <- bpow_plus. simpl. lra. }
  assert (B120 : 1 <= bp 120) by (change 1 with (bp 0); apply bpow_le; lia).
  assert (G3 := pow2_bound 3 ltac:(lia)).
  assert (Gn := pow2_bound (length l) ltac:(lia)).
  assert (Qup := app_upper _ _ _ _ QA).
  assert (Q0 : 0 <= rsum (map (fun x : f32 => B2R x) q)).
  { apply rsum_nonneg. apply Forall_map. revert QF. apply Forall_impl. tauto. }
  destruct (adds_near 24 128 _ _ q (sum q) (HS q) QF) as (F & P & A).
  { apply Rle_lt_trans with ((2 * bp 120 + 1) * 2).
    - apply Rmult_le_compat; [exact Q0| |eapply Rle_trans; [exact Qup|nra]|].
      + apply (Rle_trans _ 1); [lra|]. change (- (24))%Z with (-24)%Z. apply pow_ge1. apply Rlt_le, bp_pos.
      + change (@length (binary_float 24 128) q) with (@length f32 q). rewrite LQ. exact (proj2 Gn).
    - apply Rle_lt_trans with (bp 3 * bp 120); [change (bp 3) with 8; lra|]. rewrite <- bpow_plus. apply bpow_lt. lia. }
  set (s := sum q) in *.
  change (@length (binary_float 24 128) q) with (@length f32 q) in A. rewrite LQ in A.
  change (bp (- (24))) with u32 in A.
  assert (A' : app ((1 + u32) ^ length l) 0 (B2R s) (rsum (map (fun x : f32 => B2R x) q))).
  { eapply app_weak; [| |exact A]; [|lra]. apply pow_mono; [lra|apply Nat.le_pred_l]. }
  assert (T1 := app_trans _ _ _ _ _ _ _ (proj1 G3) (proj1 Gn) (Rmult_le_pos _ _ N0 (Rlt_le _ _ EP)) QA A').
  destruct (sqrt_rel s F P) as [F2 R2].
  assert (SQ := sq_rel u32 _ _ ltac:(lra) R2). rewrite sqrt_sqrt in SQ by auto.
  destruct (HQ _ F2) as [F3 R3]. set (n := Bsqrt mode_NE s) in *.
  assert (S0 : 0 <= B2R n * B2R n) by apply Rle_0_sqr.
  assert (V52 : bp (-52) <= u32) by (unfold u32; apply bpow_le; lia).
  assert (R3' : app (1 + u32) 0 (B2R (square (f64_of_f32 n))) (B2R n * B2R n)).
  { split; auto. eapply Rle_trans; [exact R3|]. replace (1 + u32 - 1) with u32 by ring. rewrite Rplus_0_r. apply Rmult_le_compat_r; auto. }
  split; [exact F3|]. split.
  { apply Rabs_le_inv in R3. assert (bp (-52) * (B2R n * B2R n) <= 1 * (B2R n * B2R n)) by (apply Rmult_le_compat_r; lra).
    change (0 <= B2R (square (f64_of_f32 n))). lra. }
  change (app ((1 + u32) ^ (N + 6)) (2 * INR (length (elts b)) * eta32) (B2R (square (f64_of_f32 n))) D).
  assert (H1 : 1 <= (1 + u32) ^ 3 * (1 + u32) ^ length l) by nra.
  assert (H2 : 1 <= (1 + u32) * (1 + u32)) by nra.
  assert (H3 : 0 <= (1 + u32) ^ length l * (INR (length l) * eta32) + 0).
  { rewrite Rplus_0_r. apply Rmult_le_pos; [lra|]. apply Rmult_le_pos; lra. }
  assert (T2 := app_trans _ _ _ _ _ _ _ H1 H2 H3 T1 SQ).
  assert (H4 : 1 <= (1 + u32) ^ 3 * (1 + u32) ^ length l * ((1 + u32) * (1 + u32))) by (rewrite <- (Rmult_1_l 1) at 1; apply Rmult_le_compat; lra).
  assert (H5 : 1 <= 1 + u32) by lra.
  assert (H6 : 0 <= (1 + u32) * (1 + u32) * ((1 + u32) ^ length l * (INR (length l) * eta32) + 0) + 0).
  { rewrite Rplus_0_r. apply Rmult_le_pos; [lra|exact H3]. }
  assert (T3 := app_trans _ _ _ _ _ _ _ H4 H5 H6 T2 R3').
  eapply app_weak; [| |exact T3].
  - replace ((1 + u32) ^ 3 * (1 + u32) ^ length l * ((1 + u32) * (1 + u32)) * (1 + u32)) with ((1 + u32) ^ (length l + 6)) by (rewrite pow_add; simpl; ring).
    apply pow_mono; [lra|lia].
  - rewrite !Rplus_0_r.
    assert (NL : INR (length l) <= INR (length (elts b))) by (apply le_INR; auto).
    apply Rle_trans with ((1 + u32) ^ (length l + 3) * (INR (length l) * eta32)).
    { right. rewrite pow_add. simpl. ring. }
    assert (G4 := pow2_bound (length l + 3) ltac:(lia)).
    apply Rle_trans with (2 * (INR (length l) * eta32)).
    { apply Rmult_le_compat_r; [apply Rmult_le_pos; lra|lra]. }
    rewrite Rmult_assoc. apply Rmult_le_compat; try lra; [apply Rmult_le_pos; lra|]. apply Rmult_le_compat_r; lra.
Qed.
