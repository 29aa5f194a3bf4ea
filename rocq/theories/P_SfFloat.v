(** * P_SfFloat: the tests of the first pass, in doubles, decided in integers *)
Require Import List ZArith Reals Lra Lia Bool ZifyBool.
Import ListNotations.
Require Import Flocq.Core.Core Flocq.Prop.Relative Flocq.IEEE754.BinarySingleNaN.
From Verif Require Import M_Base P_Base M_Archive M_Float P_Float M_Sf S_Sf P_Sf M_SfCodec.
Open Scope Z_scope.

Lemma r64_int z : Z.abs z <= 2 ^ 53 -> r64 (IZR z) = IZR z.
Proof.
  intros Hz. apply round_generic; [apply valid_rnd_round_mode|].
  destruct (Z.eq_dec (Z.abs z) (2 ^ 53)) as [E|N].
  - assert (Z.abs z = 2 ^ 53 -> z = 2 ^ 53 \/ z = - 2 ^ 53) by lia.
    assert (G : generic_format radix2 fexp64 (IZR (2 ^ 53))).
    { change (2 ^ 53) with (Zpower radix2 53). rewrite IZR_Zpower by lia. apply generic_format_bpow.
      unfold SpecFloat.fexp, SpecFloat.emin. lia. }
    destruct (H E) as [-> | ->]; [exact G|]. rewrite opp_IZR. apply generic_format_opp. exact G.
  - replace (IZR z) with (F2R (Float radix2 z 0)) by (unfold F2R; cbn; ring).
    apply generic_format_FLT. exists (Float radix2 z 0); [reflexivity|cbn [Fnum]; change (Zpower radix2 53) with (2 ^ 53); lia|unfold SpecFloat.emin; cbn [Fexp]; lia].
Qed.

Lemma int_small z : Z.abs z <= 2 ^ 1000 -> (Rabs (IZR z) < bpow radix2 1024)%R.
Proof.
  intros H. rewrite <- abs_IZR. rewrite <- (IZR_Zpower radix2 1024) by lia. apply IZR_lt.
  apply Z.le_lt_trans with (2 ^ 1000); [auto|]. reflexivity.
Qed.

Lemma of_int64 z : Z.abs z <= 2 ^ 53 -> B2R (f64_of_int z) = IZR z /\ is_finite (f64_of_int z) = true.
Proof.
  intros Hz. unfold f64_of_int.
  pose proof (binary_normalize_correct 53 1024 _ _ mode_NE z 0 false) as H. cbv zeta in H.
  assert (E : F2R (Float radix2 z 0) = IZR z) by (unfold F2R; cbn; ring).
  rewrite E in H. rewrite (r64_int z Hz) in H.
  rewrite Rlt_bool_true in H; [tauto|]. apply int_small.
  apply Z.le_trans with (2 ^ 53); [auto|]. apply Z.pow_le_mono_r; lia.
Qed.

Lemma pow2d_val k : 0 <= k <= 53 -> B2R (pow2d k) = IZR (2 ^ k) /\ is_finite (pow2d k) = true.
Proof.
  intros Hk. unfold pow2d.
  pose proof (binary_normalize_correct 53 1024 _ _ mode_NE 1 k false) as H. cbv zeta in H.
  assert (E : F2R (Float radix2 1 k) = IZR (2 ^ k)).
  { unfold F2R. cbn [Fnum Fexp]. rewrite Rmult_1_l. rewrite <- (IZR_Zpower radix2 k) by lia. reflexivity. }
  assert (P : 0 < 2 ^ k <= 2 ^ 53) by (split; [apply pow2_pos|apply Z.pow_le_mono_r]; lia).
  rewrite E in H. rewrite (r64_int (2 ^ k)) in H by lia.
  rewrite Rlt_bool_true in H; [tauto|]. apply int_small.
  apply Z.le_trans with (2 ^ 53); [lia|]. apply Z.pow_le_mono_r; lia.
Qed.

Lemma sub_int x y a b : B2R x = IZR a -> is_finite x = true -> B2R y = IZR b -> is_finite y = true -> Z.abs (a - b) <= 2 ^ 53 ->
  B2R (f64_sub x y) = IZR (a - b) /\ is_finite (f64_sub x y) = true.
Proof.
  intros Ex Fx Ey Fy Hab. unfold f64_sub.
  pose proof (Bminus_correct 53 1024 _ _ mode_NE x y Fx Fy) as H.
  rewrite Ex, Ey, <- minus_IZR in H. rewrite (r64_int _ Hab) in H.
  rewrite Rlt_bool_true in H; [tauto|]. apply int_small.
  apply Z.le_trans with (2 ^ 53); [auto|]. apply Z.pow_le_mono_r; lia.
Qed.

Lemma r64_le x y : (x <= y)%R -> (r64 x <= r64 y)%R.
Proof. intros. apply round_le; auto; [apply FLT_exp_valid; reflexivity|apply valid_rnd_round_mode]. Qed.

Lemma r64_0 : r64 0 = 0%R.
Proof. apply round_0. apply valid_rnd_round_mode. Qed.

(** relative error of a rounding *)
Lemma r64_rel x : (x = 0 \/ bpow radix2 (-1000) <= x)%R ->
  (x * (1 - bpow radix2 (-53)) <= r64 x <= x * (1 + bpow radix2 (-53)))%R.
Proof.
  intros [-> | Hx]; [rewrite r64_0; lra|].
  assert (P : (0 < x)%R) by (apply Rlt_le_trans with (2 := Hx); apply bpow_gt_0).
  pose proof (relative_error_N_FLT radix2 (-1074) 53 eq_refl (fun z => negb (Z.even z)) x) as H.
  rewrite (Rabs_right x) in H by lra.
  specialize (H ltac:(apply Rle_trans with (2 := Hx); apply bpow_le; lia)).
  change (round radix2 (FLT_exp (-1074) 53) (Znearest (fun z => negb (Z.even z))) x) with (r64 x) in H.
  replace (/ 2 * bpow radix2 (- (53) + 1))%R with (bpow radix2 (-53)) in H.
  2: { change (/ 2)%R with (bpow radix2 (-1)). rewrite <- bpow_plus. reflexivity. }
  apply Rabs_le_inv in H. nra.
Qed.

(** ** Soll and Ist *)
Lemma mul_div_val x y z q p F : B2R x = IZR q -> is_finite x = true -> B2R y = IZR p -> is_finite y = true ->
  B2R z = IZR F -> is_finite z = true -> 0 <= q <= 2 ^ 32 -> 0 <= p <= 2 ^ 32 -> 1 <= F <= 2 ^ 32 ->
  B2R (f64_div (f64_mul x y) z) = r64 (r64 (IZR (q * p)) / IZR F) /\ is_finite (f64_div (f64_mul x y) z) = true.
Proof.
  intros Ex Fx Ey Fy Ez Fz Hq Hp HF. unfold f64_div, f64_mul.
  pose proof (Bmult_correct 53 1024 _ _ mode_NE x y) as M. rewrite Ex, Ey, <- mult_IZR in M.
  assert (B64 : r64 (bpow radix2 64) = bpow radix2 64).
  { apply round_generic; [apply valid_rnd_round_mode|]. apply generic_format_bpow. unfold SpecFloat.fexp, SpecFloat.emin. lia. }
  assert (Bq : (0 <= r64 (IZR (q * p)) <= bpow radix2 64)%R).
  { split.
    - rewrite <- r64_0. apply r64_le. apply IZR_le. nia.
    - rewrite <- B64. apply r64_le. rewrite <- (IZR_Zpower radix2 64) by lia. apply IZR_le.
      change (Zpower radix2 64) with (2 ^ 32 * 2 ^ 32). nia. }
  assert (B1024 : (bpow radix2 64 < bpow radix2 1024)%R) by (apply bpow_lt; lia).
  rewrite Rlt_bool_true in M by (rewrite Rabs_right by lra; lra).
  destruct M as (M1 & M2 & _). rewrite Fx, Fy in M2. cbn [andb] in M2.
  assert (FR : (1 <= IZR F)%R) by (apply IZR_le; lia).
  pose proof (Bdiv_correct 53 1024 _ _ mode_NE (Bmult mode_NE x y) z ltac:(rewrite Ez; lra)) as D.
  rewrite M1, Ez in D.
  assert (Q : (0 <= r64 (IZR (q * p)) / IZR F <= bpow radix2 64)%R).
  { split.
    - apply Rmult_le_pos; [lra|]. apply Rlt_le, Rinv_0_lt_compat. lra.
    - apply Rle_trans with (bpow radix2 64 / 1)%R; [|lra]. apply Rmult_le_compat; try lra.
      + apply Rlt_le, Rinv_0_lt_compat. lra.
      + apply Rinv_le; lra. }
  assert (Bd : (0 <= r64 (r64 (IZR (q * p)) / IZR F) <= bpow radix2 64)%R).
  { split; [rewrite <- r64_0 at 1; apply r64_le; lra|]. rewrite <- B64. apply r64_le. lra. }
  rewrite Rlt_bool_true in D by (rewrite Rabs_right by lra; lra).
  destruct D as (D1 & D2 & _). split; [auto|]. rewrite D2. exact M2.
Qed.

Lemma div_val x z c T : B2R x = IZR c -> is_finite x = true -> B2R z = IZR T -> is_finite z = true ->
  0 <= c <= 2 ^ 32 -> 1 <= T <= 2 ^ 32 ->
  B2R (f64_div x z) = r64 (IZR c / IZR T) /\ is_finite (f64_div x z) = true.
Proof.
  intros Ex Fx Ez Fz Hc HT. unfold f64_div.
  assert (TR : (1 <= IZR T)%R) by (apply IZR_le; lia).
  pose proof (Bdiv_correct 53 1024 _ _ mode_NE x z ltac:(rewrite Ez; lra)) as D. rewrite Ex, Ez in D.
  assert (B64 : r64 (bpow radix2 64) = bpow radix2 64).
  { apply round_generic; [apply valid_rnd_round_mode|]. apply generic_format_bpow. unfold SpecFloat.fexp, SpecFloat.emin. lia. }
  assert (C : (0 <= IZR c <= bpow radix2 64)%R).
  { split; [apply IZR_le; lia|]. rewrite <- (IZR_Zpower radix2 64) by lia. apply IZR_le.
    change (Zpower radix2 64) with (2 ^ 32 * 2 ^ 32). nia. }
  assert (Q : (0 <= IZR c / IZR T <= bpow radix2 64)%R).
  { split.
    - apply Rmult_le_pos; [lra|]. apply Rlt_le, Rinv_0_lt_compat. lra.
    - apply Rle_trans with (bpow radix2 64 / 1)%R; [|lra]. apply Rmult_le_compat; try lra.
      + apply Rlt_le, Rinv_0_lt_compat. lra.
      + apply Rinv_le; lra. }
  assert (B1024 : (bpow radix2 64 < bpow radix2 1024)%R) by (apply bpow_lt; lia).
  assert (Bd : (0 <= r64 (IZR c / IZR T) <= bpow radix2 64)%R).
  { split; [rewrite <- r64_0 at 1; apply r64_le; lra|]. rewrite <- B64. apply r64_le. lra. }
  rewrite Rlt_bool_true in D by (rewrite Rabs_right by lra; lra).
  destruct D as (D1 & D2 & _). split; [auto|]. rewrite D2. exact Fx.
Qed.

Lemma leb_val x y : is_finite x = true -> is_finite y = true -> Bleb (prec := 53) (emax := 1024) x y = Rle_bool (B2R x) (B2R y).
Proof. intros Hx Hy. apply Bleb_correct; auto. Qed.
Lemma ltb_val x y : is_finite x = true -> is_finite y = true -> Bltb (prec := 53) (emax := 1024) x y = Rlt_bool (B2R x) (B2R y).
Proof. intros Hx Hy. apply Bltb_correct; auto. Qed.

(** the test succeeds: the group takes hardly more than its part *)
Lemma test_true q p F c T : 0 <= q <= 2 ^ 32 -> 0 <= p <= 2 ^ 32 -> 1 <= F <= 2 ^ 32 -> 0 <= c <= 2 ^ 32 -> 1 <= T <= 2 ^ 32 ->
  (r64 (r64 (IZR (q * p)) / IZR F) <= r64 (IZR c / IZR T))%R -> q * p * T * 2 ^ 50 <= F * c * (2 ^ 50 + 1).
Proof.
  intros Hq Hp HF Hc HT H.
  destruct (Z.eq_dec (q * p) 0) as [->|Nz]; [nia|].
  assert (Hqp : 1 <= q * p) by nia.
  assert (X1 : (1 <= IZR (q * p))%R) by (apply IZR_le; lia).
  assert (F1 : (1 <= IZR F)%R) by (apply IZR_le; lia).
  assert (F2 : (IZR F <= IZR (2 ^ 32))%R) by (apply IZR_le; lia).
  assert (T1 : (1 <= IZR T)%R) by (apply IZR_le; lia).
  assert (T2 : (IZR T <= IZR (2 ^ 32))%R) by (apply IZR_le; lia).
  assert (C0 : (0 <= IZR c)%R) by (apply IZR_le; lia).
  assert (E32 : (bpow radix2 (-1000) <= 1 / IZR (2 ^ 32))%R).
  { change (2 ^ 32) with (Zpower radix2 32). rewrite IZR_Zpower by lia. unfold Rdiv. rewrite Rmult_1_l, <- bpow_opp. apply bpow_le. lia. }
  assert (I32 : forall y, (1 <= y <= IZR (2 ^ 32))%R -> (1 / IZR (2 ^ 32) <= 1 / y)%R).
  { intros y Hy. apply Rmult_le_compat_l; [lra|]. apply Rinv_le; lra. }
  set (u := bpow radix2 (-53)) in *.
  assert (Hu : (0 < u <= / 1000)%R).
  { split; [apply bpow_gt_0|]. apply Rle_trans with (bpow radix2 (-10)); [apply bpow_le; lia|]. cbn. lra. }
  pose proof (r64_rel (IZR (q * p))) as R1. fold u in R1.
  assert (P1 : (1 / 2 <= r64 (IZR (q * p)))%R).
  { destruct R1 as (R1 & _); [|nra]. right. apply Rle_trans with (2 := X1). apply (bpow_le radix2 (-1000) 0). lia. }
  assert (P1' : (IZR (q * p) * (1 - u) <= r64 (IZR (q * p)))%R).
  { apply R1. right. apply Rle_trans with (2 := X1). apply (bpow_le radix2 (-1000) 0). lia. }
  clear R1. set (x := r64 (IZR (q * p))) in *.
  assert (P2 : (x / IZR F * (1 - u) <= r64 (x / IZR F))%R).
  { apply r64_rel. right. specialize (I32 (IZR F) ltac:(lra)).
    assert (bpow radix2 (-999) <= 1 / IZR (2 ^ 32))%R.
    { change (2 ^ 32) with (Zpower radix2 32). rewrite IZR_Zpower by lia. unfold Rdiv. rewrite Rmult_1_l, <- bpow_opp. apply bpow_le. lia. }
    assert (E999 : (bpow radix2 (-1000) = / 2 * bpow radix2 (-999))%R).
    { change (/ 2)%R with (bpow radix2 (-1)). rewrite <- bpow_plus. reflexivity. }
    unfold Rdiv in *. assert (0 < / IZR F)%R by (apply Rinv_0_lt_compat; lra). nra. }
  assert (P3 : (r64 (IZR c / IZR T) <= IZR c / IZR T * (1 + u))%R).
  { apply r64_rel. destruct (Z.eq_dec c 0) as [->|]; [left; unfold Rdiv; ring|]. right.
    specialize (I32 (IZR T) ltac:(lra)). assert (1 <= IZR c)%R by (apply IZR_le; lia).
    unfold Rdiv in *. assert (0 < / IZR T)%R by (apply Rinv_0_lt_compat; lra). nra. }
  assert (P4 : (x / IZR F * (1 - u) <= IZR c / IZR T * (1 + u))%R) by lra.
  assert (P5 : (IZR (q * p) * (1 - u) * (1 - u) * IZR T <= IZR c * IZR F * (1 + u))%R).
  { assert (A : (x / IZR F * (1 - u) * (IZR F * IZR T) <= IZR c / IZR T * (1 + u) * (IZR F * IZR T))%R).
    { apply Rmult_le_compat_r; [nra|auto]. }
    replace (x / IZR F * (1 - u) * (IZR F * IZR T))%R with (x * (1 - u) * IZR T)%R in A by (field; lra).
    replace (IZR c / IZR T * (1 + u) * (IZR F * IZR T))%R with (IZR c * IZR F * (1 + u))%R in A by (field; lra).
    apply Rle_trans with (2 := A). apply Rmult_le_compat_r; [lra|]. apply Rmult_le_compat_r; [lra|]. exact P1'. }
  assert (P6 : (IZR (q * p) * IZR T <= IZR c * IZR F * (1 + 8 * u))%R).
  { apply Rmult_le_reg_r with ((1 - u) * (1 - u))%R; [nra|].
    apply Rle_trans with (IZR c * IZR F * (1 + u))%R; [nra|].
    rewrite (Rmult_assoc (IZR c * IZR F) (1 + 8 * u)). apply Rmult_le_compat_l; [nra|]. nra. }
  assert (U : (8 * u * IZR (2 ^ 50) = 1)%R).
  { unfold u. change (2 ^ 50) with (Zpower radix2 50). rewrite IZR_Zpower by lia. change 8%R with (bpow radix2 3). rewrite <- !bpow_plus. reflexivity. }
  apply le_IZR. rewrite !mult_IZR, plus_IZR. rewrite <- mult_IZR.
  assert (K : (0 < IZR (2 ^ 50))%R) by (apply IZR_lt; reflexivity).
  apply Rle_trans with (IZR c * IZR F * (1 + 8 * u) * IZR (2 ^ 50))%R; [apply Rmult_le_compat_r; lra|].
  apply Req_le. replace (IZR c * IZR F * (1 + 8 * u) * IZR (2 ^ 50))%R with (IZR c * IZR F * (IZR (2 ^ 50) + 8 * u * IZR (2 ^ 50)))%R by ring.
  rewrite U. ring.
Qed.

(** it succeeds when the group fits *)
Lemma test_fits q p F c T : 0 <= q * p <= 2 ^ 53 -> 1 <= F -> 0 <= c -> 1 <= T -> q * p * T <= F * c ->
  (r64 (r64 (IZR (q * p)) / IZR F) <= r64 (IZR c / IZR T))%R.
Proof.
  intros Hq HF Hc HT H. apply r64_le. rewrite r64_int by lia.
  assert (F1 : (1 <= IZR F)%R) by (apply IZR_le; lia).
  assert (T1 : (1 <= IZR T)%R) by (apply IZR_le; lia).
  apply Rmult_le_reg_r with (IZR F * IZR T)%R; [nra|].
  replace (IZR (q * p) / IZR F * (IZR F * IZR T))%R with (IZR (q * p) * IZR T)%R by (field; lra).
  replace (IZR c / IZR T * (IZR F * IZR T))%R with (IZR c * IZR F)%R by (field; lra).
  rewrite <- !mult_IZR. apply IZR_le. lia.
Qed.
Lemma no_break q p F : 0 <= q * p <= F -> 1 <= F <= 2 ^ 53 -> (r64 (r64 (IZR (q * p)) / IZR F) <= 1)%R.
Proof.
  intros Hq HF. rewrite <- (r64_int 1) by (cbn; lia). apply r64_le. rewrite r64_int by lia.
  assert (F1 : (1 <= IZR F)%R) by (apply IZR_le; lia).
  apply Rmult_le_reg_r with (IZR F); [lra|]. unfold Rdiv. rewrite Rmult_assoc, Rinv_l, !Rmult_1_r, Rmult_1_l by lra.
  apply IZR_le. lia.
Qed.
