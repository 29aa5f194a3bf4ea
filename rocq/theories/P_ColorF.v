(** * P_ColorF: error analysis of the colour formulas in binary32 *)
Require Import ZArith QArith Qreals Bool Reals Lra Lia List.
Require Import Flocq.Core.Core Flocq.Prop.Relative Flocq.IEEE754.BinarySingleNaN.
Require Import Verif.M_Float Verif.M_Binary32 Verif.M_Color Verif.M_ColorF Verif.P_Float Verif.P_Binary32.
Import ListNotations.
Open Scope R_scope.

(** x is within e of y *)
Definition near (e x y : R) : Prop := y - e <= x <= y + e.
Lemma near_abs e x y : near e x y <-> Rabs (x - y) <= e.
Proof. unfold near. split; intros H; [apply Rabs_le; lra|apply Rabs_le_inv in H; lra]. Qed.
Lemma near_mult a b x y ea eb A B : near ea a x -> near eb b y -> - A <= x <= A -> - B <= b <= B ->
  near (ea * B + A * eb) (a * b) (x * y).
Proof.
  intros Ha Hb Hx Hy. apply near_abs in Ha. apply near_abs in Hb. apply near_abs.
  assert (Rabs x <= A) by (apply Rabs_le; lra). assert (Rabs b <= B) by (apply Rabs_le; lra).
  replace (a * b - x * y) with ((a - x) * b + x * (b - y)) by ring.
  eapply Rle_trans; [apply Rabs_triang|]. rewrite !Rabs_mult.
  apply Rplus_le_compat; apply Rmult_le_compat; auto using Rabs_pos.
Qed.
Lemma near_scale k e a x : near e a x -> 0 <= k -> near (k * e) (k * a) (k * x).
Proof.
  unfold near. intros H Hk.
  pose proof (Rmult_le_compat_l k _ _ Hk (proj1 H)). pose proof (Rmult_le_compat_l k _ _ Hk (proj2 H)). lra.
Qed.

Lemma u32_range : 0 < u32 <= 1 / 10 ^ 7.
Proof. unfold u32. cbn [bpow]. simpl. lra. Qed.
Lemma rb b x : - bp b <= x <= bp b -> (-120 <= b)%Z -> near (bp b * u32) (r32 x) x.
Proof.
  intros H Hb. apply near_abs. unfold u32. rewrite <- bpow_plus. apply r32_err; [|auto]. apply Rabs_le. lra.
Qed.
Lemma rbm x : - (1 / 2) <= x <= 1 / 2 -> near (u32 / 2) (r32 x) x.
Proof. intros H. pose proof (rb (-1) x) as L. replace (u32 / 2) with (bp (-1) * u32) by (cbn; lra). apply L; [cbn; lra|lia]. Qed.
Lemma rb0 x : - 1 <= x <= 1 -> near u32 (r32 x) x.
Proof. intros H. pose proof (rb 0 x) as L. replace u32 with (bp 0 * u32) by (cbn; lra). apply L; [cbn; lra|lia]. Qed.
Lemma rb1 x : - 2 <= x <= 2 -> near (2 * u32) (r32 x) x.
Proof. intros H. pose proof (rb 1 x) as L. replace 2 with (bp 1) at 1 by (cbn; lra). apply L; [cbn; lra|lia]. Qed.
Lemma rb2 x : - 4 <= x <= 4 -> near (4 * u32) (r32 x) x.
Proof. intros H. pose proof (rb 2 x) as L. replace 4 with (bp 2) at 1 by (cbn; lra). apply L; [cbn; lra|lia]. Qed.
Lemma rb3 x : - 8 <= x <= 8 -> near (8 * u32) (r32 x) x.
Proof. intros H. pose proof (rb 3 x) as L. replace 8 with (bp 3) at 1 by (cbn; lra). apply L; [cbn; lra|lia]. Qed.
Lemma rrel x : 1 / 10 ^ 6 <= x -> near (u32 * x) (r32 x) x.
Proof.
  intros H. apply near_abs. pose proof (Rabs_pos_eq x ltac:(lra)) as E. rewrite <- E at 3.
  replace u32 with (/ 2 * bp (- (24) + 1)) by (unfold u32; cbn; lra).
  apply (relative_error_N_FLT radix2 (-149) 24 eq_refl (fun z => negb (Z.even z)) x).
  rewrite E. apply Rle_trans with (2 := H). cbn. lra.
Qed.

(** ** operations on finite numbers *)
Lemma small_ok z : - 8 <= z <= 8 -> Rlt_bool (Rabs (r32 z)) (bp 128) = true.
Proof.
  intros H. apply Rlt_bool_true. destruct (rb3 z H) as (A & B). pose proof u32_range.
  apply Rle_lt_trans with 9; [apply Rabs_le; lra|]. apply Rlt_le_trans with (bp 4); [cbn; lra|apply bpow_le; lia].
Qed.
Lemma add_val x y : is_finite x = true -> is_finite y = true -> - 8 <= B2R x + B2R y <= 8 ->
  is_finite (f32_add x y) = true /\ B2R (f32_add x y) = r32 (B2R x + B2R y).
Proof.
  intros Fx Fy H. unfold f32_add. pose proof (Bplus_correct 24 128 _ _ mode_NE x y Fx Fy) as C.
  rewrite small_ok in C by auto. tauto.
Qed.
Lemma sub_val x y : is_finite x = true -> is_finite y = true -> - 8 <= B2R x - B2R y <= 8 ->
  is_finite (f32_sub x y) = true /\ B2R (f32_sub x y) = r32 (B2R x - B2R y).
Proof.
  intros Fx Fy H. unfold f32_sub. pose proof (Bminus_correct 24 128 _ _ mode_NE x y Fx Fy) as C.
  rewrite small_ok in C by auto. tauto.
Qed.
Lemma mul_val x y : is_finite x = true -> is_finite y = true -> - 8 <= B2R x * B2R y <= 8 ->
  is_finite (f32_mul x y) = true /\ B2R (f32_mul x y) = r32 (B2R x * B2R y).
Proof.
  intros Fx Fy H. unfold f32_mul. pose proof (Bmult_correct 24 128 _ _ mode_NE x y) as C.
  rewrite small_ok in C by auto. rewrite Fx, Fy in C. cbn [andb] in C. tauto.
Qed.
Lemma div_val x y : is_finite x = true -> B2R y <> 0 -> - 8 <= B2R x / B2R y <= 8 ->
  is_finite (f32_div x y) = true /\ B2R (f32_div x y) = r32 (B2R x / B2R y).
Proof.
  intros Fx Hy H. unfold f32_div. pose proof (Bdiv_correct 24 128 _ _ mode_NE x y Hy) as C.
  rewrite small_ok in C by auto. rewrite Fx in C. tauto.
Qed.
Lemma abs_val x : is_finite x = true -> is_finite (f32_abs x) = true /\ B2R (f32_abs x) = Rabs (B2R x).
Proof. intros F. unfold f32_abs. rewrite is_finite_Babs, B2R_Babs. auto. Qed.
Lemma int_val z : (-256 <= z <= 256)%Z -> is_finite (f32_of_int z) = true /\ B2R (f32_of_int z) = IZR z.
Proof. intros H. destruct (val_int z H). auto. Qed.

(** the real value of a closed float *)
Ltac float_value x :=
  rewrite <- (SF2R_B2SF _ _ x);
  let v := eval vm_compute in (B2SF x) in
  replace (B2SF x) with v by (vm_compute; reflexivity); unfold SF2R, F2R; cbn.
Lemma half64 : is_finite (Bdiv mode_NE (f64_of_int 1) (f64_of_int 2)) = true /\ B2R (Bdiv mode_NE (f64_of_int 1) (f64_of_int 2)) = 1 / 2.
Proof.
  split; [vm_compute; reflexivity|]. float_value (Bdiv mode_NE (f64_of_int 1) (f64_of_int 2)). lra.
Qed.
Lemma lt_half_val x : is_finite x = true -> lt_half x = Rlt_bool (B2R x) (1 / 2).
Proof.
  intros F. unfold lt_half. destruct (widen_val x F) as (E1 & E2). destruct half64 as (E3 & E4).
  rewrite Bltb_correct by auto. rewrite E1, E4. reflexivity.
Qed.
Definition c0001d : R := B2R (f64_of_literal (1 # 10000)).
Lemma c0001d_val : 0 < c0001d <= 11 / 100000.
Proof.
  unfold c0001d. float_value (f64_of_literal (1 # 10000)). lra.
Qed.
Lemma lt_0001_val x : is_finite x = true -> lt_0001 x = Rlt_bool (B2R x) c0001d.
Proof.
  intros F. unfold lt_0001. destruct (widen_val x F) as (E1 & E2).
  rewrite Bltb_correct; [rewrite E1; reflexivity|auto|vm_compute; reflexivity].
Qed.
Definition c001 : R := B2R (f32_of_literal (1 # 1000)).
Definition c0001 : R := B2R (f32_of_literal (1 # 10000)).
Lemma c001_val : is_finite (f32_of_literal (1 # 1000)) = true /\ 1 / 1000 <= c001 <= 1 / 1000 + 1 / 10 ^ 9.
Proof.
  split; [vm_compute; reflexivity|]. unfold c001. float_value (f32_of_literal (1 # 1000)). lra.
Qed.
Lemma c0001_val : is_finite (f32_of_literal (1 # 10000)) = true /\ 1 / 10000 - 1 / 10 ^ 9 <= c0001 <= 1 / 10000 + 1 / 10 ^ 9.
Proof.
  split; [vm_compute; reflexivity|]. unfold c0001. float_value (f32_of_literal (1 # 10000)). lra.
Qed.
Lemma lit_half : is_finite (f32_of_literal (1 # 2)) = true /\ B2R (f32_of_literal (1 # 2)) = 1 / 2.
Proof.
  split; [vm_compute; reflexivity|]. float_value (f32_of_literal (1 # 2)). lra.
Qed.
Lemma third_val : is_finite (f32_div (f32_of_int 1) (f32_of_int 3)) = true /\ near u32 (B2R (f32_div (f32_of_int 1) (f32_of_int 3))) (1 / 3).
Proof.
  destruct (int_val 1 ltac:(lia)) as (F1 & V1). destruct (int_val 3 ltac:(lia)) as (F3 & V3).
  destruct (div_val (f32_of_int 1) (f32_of_int 3)) as (F & V); rewrite ?V1, ?V3; auto; try lra.
  split; [auto|]. rewrite V, V1, V3. apply rb0. lra.
Qed.
Lemma sixth_val : is_finite (f32_div (f32_of_int 1) (f32_of_int 6)) = true /\ near u32 (B2R (f32_div (f32_of_int 1) (f32_of_int 6))) (1 / 6).
Proof.
  destruct (int_val 1 ltac:(lia)) as (F1 & V1). destruct (int_val 6 ltac:(lia)) as (F3 & V3).
  destruct (div_val (f32_of_int 1) (f32_of_int 6)) as (F & V); rewrite ?V1, ?V3; auto; try lra.
  split; [auto|]. rewrite V, V1, V3. apply rb0. lra.
Qed.
Lemma two_thirds_val : is_finite (f32_div (f32_of_int 2) (f32_of_int 3)) = true /\ near u32 (B2R (f32_div (f32_of_int 2) (f32_of_int 3))) (2 / 3).
Proof.
  destruct (int_val 2 ltac:(lia)) as (F1 & V1). destruct (int_val 3 ltac:(lia)) as (F3 & V3).
  destruct (div_val (f32_of_int 2) (f32_of_int 3)) as (F & V); rewrite ?V1, ?V3; auto; try lra.
  split; [auto|]. rewrite V, V1, V3. apply rb0. lra.
Qed.

(** ** the shape of a component as a function of the hue, periodic *)
Definition hump (t : R) : R := Rmax 0 (Rmin 1 (2 - 6 * Rabs (t - 1 / 3))).
Ltac hump := unfold hump, Rmax, Rmin, Rabs; repeat (destruct (Rle_dec _ _) || destruct (Rcase_abs _)); try lra.
Lemma hump_range t : 0 <= hump t <= 1. Proof. hump. Qed.
Lemma hump_lip e a b : near e a b -> near (6 * e) (hump a) (hump b).
Proof. unfold near. intros H. hump. Qed.
Lemma hump_out t : t <= 0 \/ 2 / 3 <= t -> hump t = 0. Proof. intros [H|H]; hump. Qed.
Definition wave (t : R) : R := Rmax (hump (t - 1)) (Rmax (hump t) (hump (t + 1))).
Lemma wave_lip e a b : near e a b -> near (6 * e) (wave a) (wave b).
Proof.
  intros H.
  pose proof (hump_lip e (a - 1) (b - 1) ltac:(unfold near in *; lra)) as H1. pose proof (hump_lip e a b H) as H2.
  pose proof (hump_lip e (a + 1) (b + 1) ltac:(unfold near in *; lra)) as H3. unfold near in *.
  unfold wave, Rmax. repeat destruct (Rle_dec _ _); lra.
Qed.
Lemma wave_hump t : 0 <= t <= 1 -> wave t = hump t.
Proof.
  intros H. unfold wave. rewrite (hump_out (t - 1)), (hump_out (t + 1)) by lra. pose proof (hump_range t).
  unfold Rmax. repeat destruct (Rle_dec _ _); lra.
Qed.
Lemma wave_per t : -1 <= t <= 1 -> wave (t + 1) = wave t.
Proof.
  intros H. unfold wave. rewrite (hump_out (t + 1 + 1)), (hump_out (t - 1)) by lra.
  replace (t + 1 - 1) with t by ring. pose proof (hump_range t). pose proof (hump_range (t + 1)).
  unfold Rmax. repeat destruct (Rle_dec _ _); lra.
Qed.
Lemma wave_range t : 0 <= wave t <= 1.
Proof.
  pose proof (hump_range t). pose proof (hump_range (t + 1)). pose proof (hump_range (t - 1)).
  unfold wave, Rmax. repeat destruct (Rle_dec _ _); lra.
Qed.
Lemma component_hump a b t : 0 <= t <= 1 -> component a b t = b + (a - b) * hump t.
Proof.
  intros H. unfold component.
  destruct (Rlt_dec t (1 / 6)). { replace (hump t) with (6 * t) by hump. ring. }
  destruct (Rlt_dec t (1 / 2)). { replace (hump t) with 1 by hump. ring. }
  destruct (Rlt_dec t (2 / 3)). { replace (hump t) with ((2 / 3 - t) * 6) by hump. ring. }
  rewrite hump_out by lra. ring.
Qed.
