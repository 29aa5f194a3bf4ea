(** * P_MetricsF2: the energies. *)
Require Import List Bool Arith ZArith Lia Reals Lra Permutation.
Require Import ZifyBool.
Require Import Flocq.Core.Core Flocq.Prop.Relative Flocq.Prop.Plus_error Flocq.IEEE754.BinarySingleNaN.
Require Import Verif.M_Base Verif.M_Params Verif.M_Buffer Verif.M_Float Verif.M_Binary32 Verif.M_MetricsF.
Require Import Verif.S_Exact Verif.S_MetricsF Verif.P_Float Verif.P_SfFloat Verif.P_Binary32 Verif.P_Preview3 Verif.P_MetricsF.
Import ListNotations.
Open Scope R_scope.

(** squares of floats are exact in double *)
Lemma square_format (x : f32) : generic_format radix2 (SpecFloat.fexp 53 1024) (B2R x * B2R x).
Proof.
  pose proof (generic_format_B2R 24 128 x) as H.
  change (SpecFloat.fexp 24 128) with (FLT_exp (-149) 24) in H. change (SpecFloat.fexp 53 1024) with (FLT_exp (-1074) 53).
  apply FLT_format_generic in H; [|reflexivity]. destruct H as [[m e] E B L]. cbn [Fnum Fexp] in *.
  apply generic_format_FLT. apply (FLT_spec radix2 (-1074) 53 _ (Float radix2 (m * m) (e + e))).
  - rewrite E. unfold F2R; cbn [Fnum Fexp]. rewrite mult_IZR, bpow_plus. ring.
  - cbn [Fnum]. change (radix_val radix2 ^ 53)%Z with (2 ^ 53)%Z. change (radix_val radix2 ^ 24)%Z with (2 ^ 24)%Z in B.
    rewrite Z.abs_mul. nia.
  - cbn [Fexp]. lia.
Qed.
Lemma float_lt (x : f32) : Rabs (B2R x) < bp 128.
Proof. apply abs_B2R_lt_emax. Qed.
Lemma square_lt (x : f32) : 0 <= B2R x * B2R x <= bp 256.
Proof.
  split; [apply Rle_0_sqr|]. rewrite <- (Rabs_pos_eq (B2R x * B2R x)) by apply Rle_0_sqr.
  rewrite Rabs_mult. change 256%Z with (128 + 128)%Z. rewrite bpow_plus.
  pose proof (float_lt x). apply Rmult_le_compat; try apply Rabs_pos; lra.
Qed.
Lemma square64_val (x : f32) : is_finite x = true ->
  B2R (Bmult mode_NE (f64_of_f32 x) (f64_of_f32 x)) = B2R x * B2R x /\
  is_finite (Bmult mode_NE (f64_of_f32 x) (f64_of_f32 x)) = true.
Proof.
  intros F. destruct (widen_val x F) as [V F'].
  pose proof (Bmult_correct 53 1024 _ _ mode_NE (f64_of_f32 x) (f64_of_f32 x)) as C. rewrite V in C.
  rewrite round_generic in C by (try apply valid_rnd_round_mode; apply square_format).
  rewrite Rlt_bool_true in C; [rewrite F' in C; tauto|].
  pose proof (square_lt x) as [P L]. rewrite Rabs_pos_eq by auto. eapply Rle_lt_trans; [exact L|]. apply bpow_lt. lia.
Qed.

Definition sq64 (x : f64) : f64 := Bmult mode_NE x x.
Definition reals64 (l : list f64) : list R := map (fun x : f64 => B2R x) l.
Lemma squares_sum (l : list f32) : Forall (fun x : f32 => is_finite x = true) l ->
  let q := map sq64 (filter nonzero64 (map f64_of_f32 l)) in
  Forall (fun x : f64 => is_finite x = true /\ 0 <= B2R x) q /\
  rsum (reals64 q) = fold_right (fun x s => x * x + s) 0 (map (fun x : f32 => B2R x) l) /\
  (length q <= length l)%nat /\ rsum (reals64 q) <= INR (length l) * bp 256.
Proof.
  induction 1 as [|x l F _ IH]; cbv zeta; [simpl; repeat split; auto; unfold rsum; simpl; lra|].
  destruct IH as (A & B & C & D). cbn [map filter]. pose proof (square_lt x) as [SP SL].
  destruct (square64_val x F) as [V F'].
  destruct (widen_val x F) as [W FW].
  destruct (nonzero64 (f64_of_f32 x)) eqn:Z.
  - cbn [map]. fold (sq64 (f64_of_f32 x)) in V, F'. repeat split.
    + constructor; auto. rewrite F', V. auto.
    + unfold reals64, rsum in *. cbn [map fold_right]. rewrite B, V. reflexivity.
    + cbn [length]. lia.
    + unfold reals64, rsum in *. cbn [map fold_right length]. rewrite V, S_INR. lra.
  - assert (Z0 : B2R x = 0) by (rewrite <- W; destruct (f64_of_f32 x); try discriminate; reflexivity).
    repeat split; auto.
    + cbn [fold_right map]. rewrite B, Z0. ring.
    + cbn [length]. lia.
    + cbn [length]. rewrite S_INR. lra.
Qed.

Lemma energy_real m : energy (real_mat m) = fold_right (fun x s => x * x + s) 0 (map (fun x : f32 => B2R x) (elts m)).
Proof. reflexivity. Qed.

Lemma INR_bound n k : (Z.of_nat n <= 2 ^ k)%Z -> (0 <= k)%Z -> INR n <= bp k.
Proof.
  intros H Hk. rewrite INR_IZR_INZ. rewrite <- (IZR_Zpower radix2) by auto. apply IZR_le. exact H.
Qed.

(** the double before the last rounding *)
Lemma energy64 sum (m : mat f32) : summation64 sum -> finite_mat m -> (Z.of_nat (length (elts m)) <= 2 ^ 27)%Z ->
  let s := sum (map sq64 (filter nonzero64 (map f64_of_f32 (elts m)))) in
  is_finite s = true /\ 0 <= B2R s /\ app (1 + bp (-25)) 0 (B2R s) (energy (real_mat m)).
Proof.
  intros HS HF HN. cbv zeta. destruct (squares_sum (elts m) HF) as (A & B & C & D).
  set (q := map sq64 _) in *. set (n := length (elts m)) in *.
  assert (NB := INR_bound n 27 HN ltac:(lia)).
  assert (QN : INR (length q) <= INR n) by (apply le_INR; auto).
  assert (G : 1 <= (1 + bp (-53)) ^ length q <= 1 + 2 * (INR (length q) * bp (-53))).
  { apply growth; [apply Rlt_le, bp_pos|]. apply Rle_trans with (bp 27 * bp (-53)); [apply Rmult_le_compat_r; [apply Rlt_le, bp_pos|lra]|].
    rewrite <- bpow_plus. change (1 / 2) with (1 * / 2). rewrite Rmult_1_l. change (/ 2) with (bp (-1)). apply bpow_le. lia. }
  assert (G' : (1 + bp (-53)) ^ length q <= 1 + bp (-25)).
  { eapply Rle_trans; [apply G|]. apply Rplus_le_compat_l.
    apply Rle_trans with (bp 1 * (bp 27 * bp (-53))); [|rewrite <- !bpow_plus; apply bpow_le; lia].
    change (bp 1) with 2. apply Rmult_le_compat_l; [lra|]. apply Rmult_le_compat_r; [apply Rlt_le, bp_pos|lra]. }
  assert (B25 : bp (-25) <= 1) by (change 1 with (bp 0); apply bpow_le; lia).
  destruct (adds_near 53 1024 _ _ q (sum q) (HS q) A) as (F & P & Ap).
  { apply Rle_lt_trans with ((INR n * bp 256) * 2).
    - change (rsum (map (fun x : f64 => B2R x) q)) with (rsum (reals64 q)).
      assert (RN : 0 <= rsum (reals64 q)).
      { apply rsum_nonneg. unfold reals64. apply Forall_map. revert A. apply Forall_impl. tauto. }
      apply Rmult_le_compat; change (- (53))%Z with (-53)%Z; [exact RN|apply (Rle_trans _ 1); [lra|exact (proj1 G)]|exact D|eapply Rle_trans; [exact G'|lra]].
    - apply Rle_lt_trans with (bp 27 * bp 256 * bp 1).
      + change (bp 1) with 2. apply Rmult_le_compat_r; [lra|]. apply Rmult_le_compat_r; [apply Rlt_le, bp_pos|auto].
      + rewrite <- !bpow_plus. apply bpow_lt. lia. }
  split; auto. split; auto. rewrite energy_real, <- B. eapply app_weak; [| |exact Ap]; [|lra].
  eapply Rle_trans; [|exact G']. apply pow_mono; [apply Rlt_le, bp_pos|apply Nat.le_pred_l].
Qed.

Lemma energy32_close sum m : summation64 sum -> finite_mat m -> (Z.of_nat (length (elts m)) <= 2 ^ 27)%Z ->
  energy (real_mat m) <= bp 125 ->
  let e := subband_energy32 sum m in
  is_finite e = true /\ 0 <= B2R e /\
  Rabs (B2R e - energy (real_mat m)) <= bp (-23) * energy (real_mat m) + bp (-150).
Proof.
  intros HS HF HN HE. cbv zeta. destruct (energy64 sum m HS HF HN) as (F & P & A).
  unfold subband_energy32. change (fun x : f64 => Bmult mode_NE x x) with sq64.
  set (s := sum _) in *. assert (U := app_upper _ _ _ _ A).
  assert (B25 : bp (-25) <= 1) by (change 1 with (bp 0); apply bpow_le; lia).
  assert (E0 : 0 <= energy (real_mat m)) by apply A.
  destruct (narrow_big s F) as [V F'].
  { rewrite Rabs_pos_eq by auto. change 126%Z with (1 + 125)%Z. rewrite bpow_plus. change (bp 1) with 2. nra. }
  rewrite V. split; auto. split.
  { unfold r32. rewrite <- (round_0 radix2 (SpecFloat.fexp 24 128) (round_mode mode_NE)).
    apply round_le; [apply fexp_correct; reflexivity|apply valid_rnd_round_mode|auto]. }
  assert (T : app (1 + u32) eta32 (r32 (B2R s)) (B2R s)).
  { split; auto. pose proof (r32_total (B2R s)) as T. rewrite (Rabs_pos_eq (B2R s)) in T by auto. lra. }
  assert (HG : 1 <= 1 + bp (-25)) by (pose proof (bp_pos (-25)); lra).
  assert (HU : 1 <= 1 + u32) by (pose proof u32_small; lra).
  destruct (app_trans _ _ _ _ _ _ _ HG HU (Rle_refl 0) A T) as [_ Q].
  eapply Rle_trans; [exact Q|]. rewrite Rmult_0_r, Rplus_0_l. apply Rplus_le_compat; [|apply Rle_refl].
  apply Rmult_le_compat_r; auto. unfold u32.
  assert (E1 : bp (-24) = 2 * bp (-25)) by (change 2 with (bp 1); rewrite <- bpow_plus; reflexivity).
  assert (E2 : bp (-23) = 4 * bp (-25)) by (change 4 with (bp 2); rewrite <- bpow_plus; reflexivity).
  assert (B26 : bp (-25) <= / 4) by (change (/ 4) with (bp (-2)); apply bpow_le; lia).
  rewrite E1, E2. nra.
Qed.

(** whatever the size of the values: not negative, not NaN *)
Lemma narrow_any (s : f64) : is_finite s = true -> 0 <= B2R s ->
  (is_finite (f32_of_f64 s) = true /\ 0 <= B2R (f32_of_f64 s)) \/ (f32_of_f64 s = B754_infinity false).
Proof.
  destruct s as [c|c| |c m e H]; try discriminate; intros _ P.
  - left. split; simpl; [reflexivity|lra].
  - cbn [f32_of_f64].
    pose proof (binary_normalize_correct 24 128 _ _ mode_NE (cond_Zopp c (Zpos m)) e c) as N. cbv zeta in N.
    change (F2R _) with (B2R (B754_finite (prec := 53) (emax := 1024) c m e H)) in N.
    set (X := B754_finite (prec := 53) (emax := 1024) c m e H) in *.
    assert (R0 : 0 <= round radix2 (SpecFloat.fexp 24 128) (round_mode mode_NE) (B2R X)).
    { rewrite <- (round_0 radix2 (SpecFloat.fexp 24 128) (round_mode mode_NE)).
      apply round_le; [apply fexp_correct; reflexivity|apply valid_rnd_round_mode|auto]. }
    destruct (Rlt_bool_spec (Rabs (round radix2 (SpecFloat.fexp 24 128) (round_mode mode_NE) (B2R X))) (bp 128)) as [L|L].
    + left. destruct N as (V & F & _). rewrite V. auto.
    + right. rewrite Rlt_bool_false in N by auto.
      destruct (binary_normalize 24 128 _ _ mode_NE (cond_Zopp c (Z.pos m)) e c) as [b|b| |b m' e' H'];
        cbv in N; try discriminate N. injection N as ->. reflexivity.
Qed.
Lemma narrow_inf (s : f64) : is_finite s = true -> bp 128 <= B2R s -> f32_of_f64 s = B754_infinity false.
Proof.
  intros F L. assert (P : 0 <= B2R s) by (pose proof (bp_pos 128); lra).
  destruct (narrow_any s F P) as [[F' _]|E]; auto. exfalso.
  destruct s as [c|c| |c m e H]; try discriminate; [simpl in L; pose proof (bp_pos 128); simpl in *; lra|].
  cbn [f32_of_f64] in F'.
  pose proof (binary_normalize_correct 24 128 _ _ mode_NE (cond_Zopp c (Zpos m)) e c) as N. cbv zeta in N.
  change (F2R _) with (B2R (B754_finite (prec := 53) (emax := 1024) c m e H)) in N.
  rewrite Rlt_bool_false in N.
  { destruct (binary_normalize 24 128 _ _ mode_NE (cond_Zopp c (Z.pos m)) e c); try discriminate; rewrite Rlt_bool_false in N by auto; cbv in N; discriminate. }
  eapply Rle_trans; [|apply RRle_abs].
  assert (G : round radix2 (SpecFloat.fexp 24 128) (round_mode mode_NE) (bp 128) = bp 128).
  { apply round_generic; [apply valid_rnd_round_mode|]. apply generic_format_bpow. unfold SpecFloat.fexp, SpecFloat.emin. lia. }
  rewrite <- G. apply round_le; [apply fexp_correct; reflexivity|apply valid_rnd_round_mode|auto].
Qed.

Lemma energy32_range sum m : summation64 sum -> finite_mat m -> (Z.of_nat (length (elts m)) <= 2 ^ 27)%Z ->
  let e := subband_energy32 sum m in
  ((is_finite e = true /\ 0 <= B2R e) \/ e = B754_infinity false) /\
  (bp 129 <= energy (real_mat m) -> e = B754_infinity false).
Proof.
  intros HS HF HN. cbv zeta. destruct (energy64 sum m HS HF HN) as (F & P & A).
  unfold subband_energy32. change (fun x : f64 => Bmult mode_NE x x) with sq64.
  set (s := sum _) in *. split; [apply narrow_any; auto|]. intros L. apply narrow_inf; auto.
  destruct A as [E0 A]. apply Rabs_le_inv in A.
  assert (B26 : bp (-25) <= / 4) by (change (/ 4) with (bp (-2)); apply bpow_le; lia).
  assert (E1 : bp 129 = 2 * bp 128) by (change 2 with (bp 1); rewrite <- bpow_plus; reflexivity).
  pose proof (bp_pos 128). assert (bp (-25) * energy (real_mat m) <= / 4 * energy (real_mat m)) by (apply Rmult_le_compat_r; lra). lra.
Qed.

