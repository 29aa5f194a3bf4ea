(** * P_Float *)
Require Import ZArith Bool Reals Lra Lia List.
Require Import Flocq.Core.Core Flocq.IEEE754.BinarySingleNaN.
Require Import Verif.M_Float.
Import ListNotations.
Open Scope Z_scope.

Lemma pixels_all : forallb (fun z => to_pixel (of_pixel z) =? z) (map Z.of_nat (seq 0 256)) = true.
Proof. vm_compute. reflexivity. Qed.

Lemma pixel_back z : 0 <= z <= 255 -> to_pixel (of_pixel z) = z.
Proof.
  intros H. pose proof pixels_all as E. rewrite forallb_forall in E. apply Z.eqb_eq, E.
  apply in_map_iff. exists (Z.to_nat z). split; [lia|]. apply in_seq. lia.
Qed.

Notation fexp32 := (SpecFloat.fexp 24 128).
Notation r32 := (round radix2 fexp32 (round_mode mode_NE)).

Lemma val_int z : (-256 <= z <= 256)%Z -> B2R (f32_of_int z) = IZR z /\ is_finite (f32_of_int z) = true.
Proof.
  intros Hz. unfold f32_of_int.
  pose proof (binary_normalize_correct 24 128 _ _ mode_NE z 0 false) as H. cbv zeta in H.
  assert (E : F2R (Float radix2 z 0) = IZR z) by (unfold F2R; cbn; ring).
  rewrite E in H.
  assert (G : r32 (IZR z) = IZR z).
  { apply round_generic; [apply valid_rnd_round_mode|]. rewrite <- E. apply generic_format_FLT.
    exists (Float radix2 z 0); cbn; auto; [|lia]. apply Z.le_lt_trans with 256; lia. }
  rewrite G in H.
  rewrite Rlt_bool_true in H; [tauto|]. rewrite <- abs_IZR. apply Rle_lt_trans with (IZR 256); [apply IZR_le; lia|].
  cbn. apply IZR_lt. reflexivity.
Qed.

Lemma f32_lt_val x y : is_finite x = true -> is_finite y = true -> f32_lt x y = Rlt_bool (B2R x) (B2R y).
Proof. intros. unfold f32_lt. apply Bltb_correct; auto. Qed.

Lemma clamp_range x : is_finite (clamp01 x) = true /\ (0 <= B2R (clamp01 x) <= 1)%R.
Proof.
  destruct (val_int 0 ltac:(lia)) as (V0 & F0). destruct (val_int 1 ltac:(lia)) as (V1 & F1).
  unfold clamp01. cbv zeta.
  assert (G : forall y, is_finite y = true -> (B2R y <= 1)%R ->
    is_finite (if f32_lt (f32_of_int 0) y then y else f32_of_int 0) = true /\
    (0 <= B2R (if f32_lt (f32_of_int 0) y then y else f32_of_int 0) <= 1)%R).
  { intros y Fy Hy. rewrite f32_lt_val by auto. rewrite V0. case Rlt_bool_spec; intros H; [|rewrite V0]; (split; [auto|lra]). }
  destruct x as [s|s| |s m e H].
  - replace (f32_lt (B754_zero s) (f32_of_int 1)) with true by (destruct s; reflexivity). apply G; auto. cbn. lra.
  - destruct s.
    + replace (f32_lt (B754_infinity true) (f32_of_int 1)) with true by reflexivity.
      replace (f32_lt (f32_of_int 0) (B754_infinity true)) with false by reflexivity. rewrite V0. split; [auto|lra].
    + replace (f32_lt (B754_infinity false) (f32_of_int 1)) with false by reflexivity. apply G; auto. lra.
  - replace (f32_lt B754_nan (f32_of_int 1)) with false by reflexivity. apply G; auto. lra.
  - rewrite (f32_lt_val (B754_finite s m e H) (f32_of_int 1)) by auto. rewrite V1. case Rlt_bool_spec; intros Hx; apply G; auto; lra.
Qed.

(** inside [0,1] nothing is clamped *)
Lemma clamp_id x : is_finite x = true -> (0 <= B2R x <= 1)%R -> B2R (clamp01 x) = B2R x.
Proof.
  destruct (val_int 0 ltac:(lia)) as (V0 & F0). destruct (val_int 1 ltac:(lia)) as (V1 & F1).
  intros F H. unfold clamp01. cbv zeta. rewrite (f32_lt_val x) by auto. rewrite V1.
  case Rlt_bool_spec; intros Hx.
  - rewrite f32_lt_val by auto. rewrite V0. case Rlt_bool_spec; intros; [auto|]. rewrite V0. lra.
  - rewrite f32_lt_val by auto. rewrite V0, V1. rewrite Rlt_bool_true by lra. lra.
Qed.

Lemma product_255 y : is_finite y = true -> (0 <= B2R y <= 1)%R ->
  B2R (f32_mul y (f32_of_int 255)) = r32 (B2R y * 255) /\ (0 <= r32 (B2R y * 255) <= 255)%R.
Proof.
  intros F H. destruct (val_int 255 ltac:(lia)) as (V & FV).
  pose proof (Bmult_correct 24 128 _ _ mode_NE y (f32_of_int 255)) as M. rewrite V in M.
  assert (B : (0 <= r32 (B2R y * 255) <= 255)%R).
  { split.
    - rewrite <- (round_0 radix2 fexp32 (round_mode mode_NE)). apply round_le; [apply FLT_exp_valid; reflexivity|apply valid_rnd_round_mode|]. lra.
    - assert (E : r32 255 = 255%R).
      { apply round_generic; [apply valid_rnd_round_mode|]. rewrite <- V. apply generic_format_B2R. }
      rewrite <- E at 2. apply round_le; [apply FLT_exp_valid; reflexivity|apply valid_rnd_round_mode|]. lra. }
  rewrite Rlt_bool_true in M.
  - split; [apply M|exact B].
  - rewrite Rabs_right by lra. apply Rle_lt_trans with 255%R; [lra|]. cbn. apply IZR_lt. reflexivity.
Qed.

Lemma to_pixel_val x : to_pixel x = Zfloor (r32 (B2R (clamp01 x) * 255)) /\ (0 <= r32 (B2R (clamp01 x) * 255) <= 255)%R.
Proof.
  destruct (clamp_range x) as (F & H). destruct (product_255 _ F H) as (E & B). split; [|exact B].
  unfold to_pixel. apply eq_IZR. rewrite (Btrunc_correct 24 128 _). rewrite E.
  rewrite round_FIX_IZR. rewrite Ztrunc_floor by lra. reflexivity.
Qed.

Lemma to_pixel_range x : 0 <= to_pixel x <= 255.
Proof.
  destruct (to_pixel_val x) as (E & B). rewrite E. split.
  - apply Zfloor_lub. apply B.
  - apply le_IZR. apply Rle_trans with (2 := proj2 B). apply Zfloor_lb.
Qed.

Lemma clamp_val x : is_finite x = true -> B2R (clamp01 x) = Rmax 0 (Rmin 1 (B2R x)).
Proof.
  destruct (val_int 0 ltac:(lia)) as (V0 & F0). destruct (val_int 1 ltac:(lia)) as (V1 & F1).
  intros F. unfold clamp01. cbv zeta. rewrite (f32_lt_val x) by auto. rewrite V1.
  case Rlt_bool_spec; intros Hx; rewrite f32_lt_val by auto; rewrite V0.
  - rewrite (Rmin_right 1) by lra. case Rlt_bool_spec; intros Hy; [rewrite Rmax_right by lra|rewrite Rmax_left, V0 by lra]; reflexivity.
  - rewrite (Rmin_left 1) by lra. rewrite V1, Rlt_bool_true by lra. rewrite V1, Rmax_right by lra. reflexivity.
Qed.

Lemma r32_le x y : (x <= y)%R -> (r32 x <= r32 y)%R.
Proof. apply round_le; [apply FLT_exp_valid; reflexivity|apply valid_rnd_round_mode]. Qed.

Lemma to_pixel_mono x y : is_finite x = true -> is_finite y = true -> (B2R x <= B2R y)%R -> to_pixel x <= to_pixel y.
Proof.
  intros Fx Fy H. destruct (to_pixel_val x) as (-> & _). destruct (to_pixel_val y) as (-> & _).
  apply Zfloor_le, r32_le. rewrite !clamp_val by auto. apply Rmult_le_compat_r; [lra|].
  apply Rle_max_compat_l, Rle_min_compat_l. exact H.
Qed.

Lemma r32_err x b : (Rabs x <= bpow radix2 b)%R -> -120 <= b -> (Rabs (r32 x - x) <= bpow radix2 (b - 24))%R.
Proof.
  intros Hx Hb.
  apply Rle_trans with (/ 2 * ulp radix2 fexp32 x)%R.
  { apply error_le_half_ulp. apply FLT_exp_valid; reflexivity. }
  apply Rle_trans with (/ 2 * ulp radix2 fexp32 (bpow radix2 b))%R.
  { apply Rmult_le_compat_l; [lra|]. apply ulp_le; [apply FLT_exp_valid; reflexivity|apply FLT_exp_monotone|].
    rewrite (Rabs_right (bpow _ _)) by (apply Rle_ge, bpow_ge_0). exact Hx. }
  rewrite ulp_bpow. unfold SpecFloat.fexp, SpecFloat.emin. rewrite Z.max_l by lia.
  change (/ 2)%R with (bpow radix2 (-1)). rewrite <- bpow_plus. apply bpow_le. lia.
Qed.

Lemma to_pixel_close x : is_finite x = true -> (0 <= B2R x <= 1)%R ->
  (255 * B2R x - 1 - bpow radix2 (-16) < IZR (to_pixel x) <= 255 * B2R x + bpow radix2 (-16))%R.
Proof.
  intros F H. destruct (to_pixel_val x) as (-> & _). rewrite clamp_id by auto.
  assert (E : (Rabs (r32 (B2R x * 255) - B2R x * 255) <= bpow radix2 (8 - 24))%R).
  { apply r32_err; [|lia]. rewrite Rabs_right by lra. cbn. lra. }
  apply Rabs_le_inv in E. change (8 - 24)%Z with (-16)%Z in E.
  pose proof (Zfloor_lb (r32 (B2R x * 255))). pose proof (Zfloor_ub (r32 (B2R x * 255))). lra.
Qed.

Notation fexp64 := (SpecFloat.fexp 53 1024).
Notation r64 := (round radix2 fexp64 (round_mode mode_NE)).
Lemma r64_err x b : (Rabs x <= bpow radix2 b)%R -> -120 <= b -> (Rabs (r64 x - x) <= bpow radix2 (b - 53))%R.
Proof.
  intros Hx Hb.
  apply Rle_trans with (/ 2 * ulp radix2 fexp64 x)%R.
  { apply error_le_half_ulp. apply FLT_exp_valid; reflexivity. }
  apply Rle_trans with (/ 2 * ulp radix2 fexp64 (bpow radix2 b))%R.
  { apply Rmult_le_compat_l; [lra|]. apply ulp_le; [apply FLT_exp_valid; reflexivity|apply FLT_exp_monotone|].
    rewrite (Rabs_right (bpow _ _)) by (apply Rle_ge, bpow_ge_0). exact Hx. }
  rewrite ulp_bpow. unfold SpecFloat.fexp, SpecFloat.emin. rewrite Z.max_l by lia.
  change (/ 2)%R with (bpow radix2 (-1)). rewrite <- bpow_plus. apply bpow_le. lia.
Qed.

Lemma val_int64 z : (-256 <= z <= 256)%Z -> B2R (f64_of_int z) = IZR z /\ is_finite (f64_of_int z) = true.
Proof.
  intros Hz. unfold f64_of_int.
  pose proof (binary_normalize_correct 53 1024 _ _ mode_NE z 0 false) as H. cbv zeta in H.
  assert (E : F2R (Float radix2 z 0) = IZR z) by (unfold F2R; cbn; ring).
  rewrite E in H.
  assert (G : r64 (IZR z) = IZR z).
  { apply round_generic; [apply valid_rnd_round_mode|]. rewrite <- E. apply generic_format_FLT.
    exists (Float radix2 z 0); cbn; auto; [|lia]. apply Z.le_lt_trans with 256; lia. }
  rewrite G in H.
  rewrite Rlt_bool_true in H; [tauto|]. rewrite <- abs_IZR. apply Rle_lt_trans with (IZR 256); [apply IZR_le; lia|].
  apply Rlt_le_trans with (bpow radix2 9); [cbn; lra|]. apply bpow_le. lia.
Qed.

Lemma narrow x : is_finite x = true -> (Rabs (B2R x) <= 2)%R ->
  B2R (f32_of_f64 x) = r32 (B2R x) /\ is_finite (f32_of_f64 x) = true.
Proof.
  destruct x as [s|s| |s m e H]; try discriminate; intros _ Hx.
  - cbn [f32_of_f64 B2R]. rewrite round_0 by apply valid_rnd_round_mode. auto.
  - cbn [f32_of_f64].
    pose proof (binary_normalize_correct 24 128 _ _ mode_NE (cond_Zopp s (Zpos m)) e s) as N. cbv zeta in N.
    change (F2R _) with (B2R (B754_finite (prec := 53) (emax := 1024) s m e H)) in N.
    rewrite Rlt_bool_true in N; [tauto|].
    apply Rle_lt_trans with (bpow radix2 1); [|apply bpow_lt; lia].
    apply abs_round_le_generic; [apply FLT_exp_valid; reflexivity|apply valid_rnd_round_mode| |change (bpow radix2 1) with 2%R; exact Hx].
    apply generic_format_bpow. unfold SpecFloat.fexp, SpecFloat.emin. lia.
Qed.

Lemma of_pixel_close z : 0 <= z <= 255 ->
  is_finite (of_pixel z) = true /\ (0 <= B2R (of_pixel z) <= 1)%R /\
  (Rabs (B2R (of_pixel z) - IZR z / 255) <= bpow radix2 (-24) + bpow radix2 (-53))%R.
Proof.
  intros Hz. unfold of_pixel.
  destruct (val_int64 z ltac:(lia)) as (V & F). destruct (val_int64 255 ltac:(lia)) as (V2 & F2).
  assert (H01 : (0 <= IZR z / 255 <= 1)%R).
  { destruct Hz as (Hz2 & Hz3). apply IZR_le in Hz2, Hz3. lra. }
  pose proof (Bdiv_correct 53 1024 _ _ mode_NE (f64_of_int z) (f64_of_int 255)) as D.
  rewrite V, V2 in D. specialize (D ltac:(lra)).
  assert (one64 : r64 1 = 1%R).
  { apply round_generic; [apply valid_rnd_round_mode|]. change 1%R with (bpow radix2 0). apply generic_format_bpow. unfold SpecFloat.fexp, SpecFloat.emin. lia. }
  assert (one32 : r32 1 = 1%R).
  { apply round_generic; [apply valid_rnd_round_mode|]. change 1%R with (bpow radix2 0). apply generic_format_bpow. unfold SpecFloat.fexp, SpecFloat.emin. lia. }
  assert (B : (0 <= r64 (IZR z / 255) <= 1)%R).
  { split.
    - rewrite <- (round_0 radix2 fexp64 (round_mode mode_NE)). apply round_le; [apply FLT_exp_valid; reflexivity|apply valid_rnd_round_mode|]. lra.
    - rewrite <- one64. apply round_le; [apply FLT_exp_valid; reflexivity|apply valid_rnd_round_mode|]. lra. }
  rewrite Rlt_bool_true in D.
  2: { rewrite Rabs_right by lra. apply Rle_lt_trans with (bpow radix2 0); [exact (proj2 B)|]. apply bpow_lt. lia. }
  destruct D as (D1 & D2 & _). rewrite F in D2.
  destruct (narrow (Bdiv mode_NE (f64_of_int z) (f64_of_int 255))) as (N1 & N2); [exact D2|rewrite D1, Rabs_right; lra|].
  split; [exact N2|]. rewrite N1, D1. split.
  - split.
    + rewrite <- (round_0 radix2 fexp32 (round_mode mode_NE)). apply r32_le. lra.
    + rewrite <- one32. apply r32_le. lra.
  - assert (E1 : (Rabs (r32 (r64 (IZR z / 255)) - r64 (IZR z / 255)) <= bpow radix2 (0 - 24))%R).
    { apply r32_err; [|lia]. rewrite Rabs_right by lra. exact (proj2 B). }
    assert (E2 : (Rabs (r64 (IZR z / 255) - IZR z / 255) <= bpow radix2 (0 - 53))%R).
    { apply r64_err; [|lia]. rewrite Rabs_right by lra. exact (proj2 H01). }
    change (0 - 24) with (-24) in E1. change (0 - 53) with (-53) in E2.
    apply Rabs_le_inv in E1, E2. apply Rabs_le. lra.
Qed.

Lemma pixel_error x : is_finite x = true -> (0 <= B2R x <= 1)%R ->
  (Rabs (B2R (of_pixel (to_pixel x)) - B2R x) <= 1 / 255 + bpow radix2 (-22))%R.
Proof.
  intros F H. pose proof (to_pixel_close x F H) as C. destruct (of_pixel_close _ (to_pixel_range x)) as (_ & _ & D).
  assert (E1 : (bpow radix2 (-22) = 64 * bpow radix2 (-28))%R) by (change (-22) with (6 + -28); rewrite bpow_plus; cbn; ring).
  assert (E2 : (bpow radix2 (-16) = 4096 * bpow radix2 (-28))%R) by (change (-16) with (12 + -28); rewrite bpow_plus; cbn; ring).
  assert (E3 : (bpow radix2 (-24) = 16 * bpow radix2 (-28))%R) by (change (-24) with (4 + -28); rewrite bpow_plus; cbn; ring).
  assert (E4 : (bpow radix2 (-53) <= bpow radix2 (-28))%R) by (apply bpow_le; lia).
  pose proof (bpow_gt_0 radix2 (-28)) as P.
  apply Rabs_le_inv in D. apply Rabs_le. lra.
Qed.

Lemma quality_refused_iff q : is_finite q = true -> quality_refused q = true <-> (B2R q < 0 \/ 1 < B2R q)%R.
Proof.
  destruct (val_int 0 ltac:(lia)) as (V0 & F0). destruct (val_int 1 ltac:(lia)) as (V1 & F1).
  intros F. unfold quality_refused. rewrite !f32_lt_val by auto. rewrite V0, V1, orb_true_iff.
  split; (intros [H|H]; [left|right]).
  - revert H. case Rlt_bool_spec; auto; discriminate.
  - revert H. case Rlt_bool_spec; auto; discriminate.
  - apply Rlt_bool_true. exact H.
  - apply Rlt_bool_true. exact H.
Qed.

Lemma quality_ok q : is_nan q = false -> quality_refused q = false ->
  exists n, quality_percent q = Some n /\ 0 <= n <= 100.
Proof.
  intros N R. assert (F : is_finite q = true).
  { destruct q as [s|s| |s m e H]; try reflexivity; try discriminate. destruct s; vm_compute in R; discriminate. }
  pose proof (quality_refused_iff q F) as I. rewrite R in I.
  assert (H : (0 <= B2R q <= 1)%R).
  { destruct (Rlt_dec (B2R q) 0); [exfalso; assert (false = true) by (apply I; auto); discriminate|].
    destruct (Rlt_dec 1 (B2R q)); [exfalso; assert (false = true) by (apply I; auto); discriminate|]. lra. }
  destruct (val_int 100 ltac:(lia)) as (V & FV).
  pose proof (Bmult_correct 24 128 _ _ mode_NE q (f32_of_int 100)) as M. rewrite V in M.
  assert (B : (0 <= r32 (B2R q * 100) <= 100)%R).
  { split.
    - rewrite <- (round_0 radix2 fexp32 (round_mode mode_NE)). apply r32_le. lra.
    - assert (E : r32 100 = 100%R).
      { apply round_generic; [apply valid_rnd_round_mode|]. rewrite <- V. apply generic_format_B2R. }
      rewrite <- E at 2. apply r32_le. lra. }
  rewrite Rlt_bool_true in M.
  2: { rewrite Rabs_right by lra. apply Rle_lt_trans with 100%R; [lra|]. cbn. apply IZR_lt. reflexivity. }
  destruct M as (M1 & M2 & _). fold (f32_mul q (f32_of_int 100)) in M1, M2. rewrite F, FV in M2. cbn [andb] in M2.
  assert (T : Btrunc (f32_mul q (f32_of_int 100)) = Zfloor (r32 (B2R q * 100))).
  { apply eq_IZR. rewrite (Btrunc_correct 24 128 _). rewrite M1, round_FIX_IZR, Ztrunc_floor by lra. reflexivity. }
  assert (0 <= Zfloor (r32 (B2R q * 100)) <= 100).
  { split; [apply Zfloor_lub; apply B|]. apply le_IZR. apply Rle_trans with (2 := proj2 B). apply Zfloor_lb. }
  unfold quality_percent. cbv zeta. rewrite M2, T. cbn [andb].
  rewrite (proj2 (Z.ltb_lt _ _)) by (rewrite Z.abs_eq by lia; apply Z.le_lt_trans with 100; [lia|reflexivity]).
  eexists. split; [reflexivity|assumption].
Qed.
