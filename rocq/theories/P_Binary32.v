(** * P_Binary32: the transform in binary32 against rounded reals. *)
Require Import List Bool Arith ZArith QArith Qabs Qreals Lia Reals Lra.
Require Import ZifyBool.
Require Import Flocq.Core.Core Flocq.Prop.Relative Flocq.IEEE754.BinarySingleNaN.
Require Import Verif.M_Base Verif.M_Float Verif.M_Binary32 Verif.M_Wavelet Verif.S_Round Verif.P_Float Verif.P_SfFloat.
Require Import Verif.P_Base Verif.P_Wavelet Verif.P_Buffer Verif.P_Rel Verif.P_PR.
Import ListNotations.
Open Scope R_scope.

Notation bp := (bpow radix2).
Definition u32 : R := bp (-24).
Definition eta32 : R := bp (-150).

Lemma bp_pos e : 0 < bp e. Proof. apply bpow_gt_0. Qed.
Lemma r32_total x : Rabs (r32 x - x) <= u32 * Rabs x + eta32.
Proof.
  destruct (error_N_FLT radix2 (-149) 24 eq_refl (fun z => negb (Z.even z)) x) as (e & h & He & Hh & _ & E).
  change (round radix2 (FLT_exp (-149) 24) (Znearest (fun z => negb (Z.even z))) x) with (r32 x) in E.
  rewrite E. replace (x * (1 + e) + h - x) with (e * x + h) by ring.
  eapply Rle_trans; [apply Rabs_triang|]. rewrite Rabs_mult. apply Rplus_le_compat.
  - apply Rmult_le_compat_r; [apply Rabs_pos|]. eapply Rle_trans; [exact He|]. unfold u32.
    change (/ 2) with (bp (-1)). rewrite <- bpow_plus. apply Rle_refl.
  - eapply Rle_trans; [exact Hh|]. unfold eta32. change (/ 2) with (bp (-1)). rewrite <- bpow_plus. apply Rle_refl.
Qed.
Lemma r64_total x : Rabs (r64 x - x) <= bp (-53) * Rabs x + bp (-1075).
Proof.
  destruct (error_N_FLT radix2 (-1074) 53 eq_refl (fun z => negb (Z.even z)) x) as (e & h & He & Hh & _ & E).
  change (round radix2 (FLT_exp (-1074) 53) (Znearest (fun z => negb (Z.even z))) x) with (r64 x) in E.
  rewrite E. replace (x * (1 + e) + h - x) with (e * x + h) by ring.
  eapply Rle_trans; [apply Rabs_triang|]. rewrite Rabs_mult. apply Rplus_le_compat.
  - apply Rmult_le_compat_r; [apply Rabs_pos|]. eapply Rle_trans; [exact He|].
    change (/ 2) with (bp (-1)). rewrite <- bpow_plus. apply Rle_refl.
  - eapply Rle_trans; [exact Hh|]. change (/ 2) with (bp (-1)). rewrite <- bpow_plus. apply Rle_refl.
Qed.

(** ** relative errors *)
Definition rel (e a b : R) : Prop := Rabs (a - b) <= e * Rabs b.
Lemma rel_trans e f a b c : 0 <= e -> rel e a b -> rel f b c -> rel (e + f + e * f) a c.
Proof.
  unfold rel. intros He H1 H2.
  replace (a - c) with ((a - b) + (b - c)) by ring. eapply Rle_trans; [apply Rabs_triang|].
  assert (Rabs b <= Rabs c + Rabs (b - c)).
  { replace b with (c + (b - c)) at 1 by ring. apply Rabs_triang. }
  assert (e * Rabs b <= e * (Rabs c + f * Rabs c)) by (apply Rmult_le_compat_l; lra).
  apply Rle_trans with (e * (Rabs c + f * Rabs c) + f * Rabs c); [lra|]. apply Req_le. ring.
Qed.
Lemma rel_pos e f : 0 <= e -> 0 <= f -> 0 <= e + f + e * f.
Proof. intros. pose proof (Rmult_le_pos e f H H0). lra. Qed.
Lemma rel_mult e a b c : rel e a b -> rel e (c * a) (c * b).
Proof.
  unfold rel. intros H. rewrite <- Rmult_minus_distr_l, !Rabs_mult.
  rewrite <- Rmult_assoc, (Rmult_comm e), Rmult_assoc. apply Rmult_le_compat_l; auto. apply Rabs_pos.
Qed.
Lemma rel_weak e f a b : e <= f -> rel e a b -> rel f a b.
Proof. unfold rel. intros H1 H2. eapply Rle_trans; [exact H2|]. apply Rmult_le_compat_r; auto. apply Rabs_pos. Qed.
Lemma rel_abs e a b : 0 <= e -> rel e a b -> (1 - e) * Rabs b <= Rabs a <= (1 + e) * Rabs b.
Proof.
  unfold rel. intros He H. split.
  - assert (Rabs b <= Rabs a + Rabs (a - b)); [|lra].
    replace b with (a + - (a - b)) at 1 by ring. eapply Rle_trans; [apply Rabs_triang|]. rewrite Rabs_Ropp. lra.
  - assert (Rabs a <= Rabs b + Rabs (a - b)); [|lra].
    replace a with (b + (a - b)) at 1 by ring. apply Rabs_triang.
Qed.

Definition e32 : R := bp (-24) + bp (-60).
Definition e64 : R := bp (-52).
Lemma bp_split a b : bp (a + b) = bp a * bp b. Proof. apply bpow_plus. Qed.
Lemma r32_rel x : bp (-30) <= Rabs x -> rel e32 (r32 x) x.
Proof.
  intros H. unfold rel. eapply Rle_trans; [apply r32_total|]. unfold e32. rewrite Rmult_plus_distr_r.
  apply Rplus_le_compat_l. unfold eta32. apply Rle_trans with (bp (-60) * bp (-30)).
  - rewrite <- bpow_plus. apply bpow_le. lia.
  - apply Rmult_le_compat_l; auto. apply Rlt_le, bp_pos.
Qed.
Lemma r64_rel' x : bp (-30) <= Rabs x -> rel e64 (r64 x) x.
Proof.
  intros H. unfold rel. eapply Rle_trans; [apply r64_total|]. unfold e64.
  replace (bp (-52)) with (bp (-53) + bp (-53)).
  2:{ change (-52)%Z with (1 + -53)%Z. rewrite bpow_plus. change (bp 1) with 2. ring. }
  rewrite Rmult_plus_distr_r.
  apply Rplus_le_compat_l. apply Rle_trans with (bp (-53) * bp (-30)).
  - rewrite <- bpow_plus. apply bpow_le. lia.
  - apply Rmult_le_compat_l; auto. apply Rlt_le, bp_pos.
Qed.

(** ** literals *)
Lemma fmt64 x : generic_format radix2 fexp32 x -> generic_format radix2 fexp64 x.
Proof.
  intros H. apply (generic_inclusion_mag radix2 fexp32 fexp64); auto.
  intros _. unfold SpecFloat.fexp, SpecFloat.emin. lia.
Qed.
Lemma widen_val (x : f32) : is_finite x = true -> B2R (f64_of_f32 x) = B2R x /\ is_finite (f64_of_f32 x) = true.
Proof.
  destruct x as [s|s| |s m e H]; try discriminate; intros _; [split; reflexivity|].
  cbn [f64_of_f32].
  pose proof (binary_normalize_correct 53 1024 _ _ mode_NE (cond_Zopp s (Zpos m)) e s) as N. cbv zeta in N.
  change (F2R _) with (B2R (B754_finite (prec := 24) (emax := 128) s m e H)) in N.
  set (X := B754_finite (prec := 24) (emax := 128) s m e H) in *.
  assert (F : r64 (B2R X) = B2R X).
  { apply round_generic; [apply valid_rnd_round_mode|]. apply fmt64. apply generic_format_B2R. }
  rewrite F in N. rewrite Rlt_bool_true in N; [tauto|].
  apply Rlt_trans with (bp 128); [apply abs_B2R_lt_emax|apply bpow_lt; lia].
Qed.

Lemma sticky_val q : let n := (Qnum q * 2 ^ 100)%Z in let d := Zpos (Qden q) in
  Rabs (F2R (Float radix2 (2 * (n / d) + (if n mod d =? 0 then 0 else 1))%Z (-101)) - Q2R q) <= bp (-100).
Proof.
  intros n d. unfold F2R; cbn [Fnum Fexp].
  pose proof (Z.div_mod n d ltac:(unfold d; lia)) as DM. pose proof (Z.mod_pos_bound n d ltac:(unfold d; lia)) as MB.
  set (f := (n / d)%Z) in *. set (r := (n mod d)%Z) in *. set (b := (if r =? 0 then 0 else 1)%Z).
  assert (Hd : 0 < IZR d) by (apply IZR_lt; unfold d; lia).
  assert (EQ : Q2R q = (IZR f + IZR r / IZR d) * bp (-100)).
  { assert (E1 : IZR n = IZR d * IZR f + IZR r) by (rewrite DM, plus_IZR, mult_IZR; reflexivity).
    unfold n in E1. rewrite mult_IZR in E1.
    assert (E2 : IZR (2 ^ 100) = bp 100) by (rewrite <- IZR_Zpower by lia; reflexivity).
    rewrite E2 in E1. unfold Q2R. fold d.
    replace (bp (-100)) with (/ bp 100) by (rewrite <- bpow_opp; reflexivity).
    pose proof (bp_pos 100).
    replace (IZR f + IZR r / IZR d) with ((IZR d * IZR f + IZR r) / IZR d) by (field; lra).
    rewrite <- E1. field. split; lra. }
  replace (bp (-101)) with (bp (-100) / 2).
  2:{ change (-100)%Z with (1 + -101)%Z. rewrite bpow_plus. change (bp 1) with 2. field. }
  rewrite EQ. rewrite plus_IZR, mult_IZR.
  replace ((2 * IZR f + IZR b) * (bp (-100) / 2) - (IZR f + IZR r / IZR d) * bp (-100))
    with ((IZR b / 2 - IZR r / IZR d) * bp (-100)) by (field; lra).
  rewrite Rabs_mult, (Rabs_pos_eq (bp (-100))) by (apply Rlt_le, bp_pos).
  rewrite <- (Rmult_1_l (bp (-100))) at 2. apply Rmult_le_compat_r; [apply Rlt_le, bp_pos|].
  assert (0 <= IZR r / IZR d <= 1).
  { split; [apply Rmult_le_pos; [apply IZR_le; lia|apply Rlt_le, Rinv_0_lt_compat; auto]|].
    apply (Rmult_le_reg_r (IZR d)); auto. unfold Rdiv. rewrite Rmult_assoc, Rinv_l, Rmult_1_r, Rmult_1_l by lra.
    apply IZR_le; lia. }
  unfold b. destruct (Z.eqb_spec r 0) as [E|E].
  - rewrite E. unfold Rdiv. rewrite !Rmult_0_l, Rminus_diag_eq, Rabs_R0 by auto. lra.
  - apply Rabs_le. lra.
Qed.

Lemma million : bp (-20) <= 1 / 10 ^ 6.
Proof. cbn [bpow]. simpl. lra. Qed.

Lemma e32_small : 0 <= e32 <= 1 / 10 ^ 7.
Proof. unfold e32. cbn [bpow]. simpl. lra. Qed.
Lemma e64_small : 0 <= e64 <= 1 / 10 ^ 15.
Proof. unfold e64. cbn [bpow]. simpl. lra. Qed.

Lemma sqrt2_bounds : 141 / 100 <= sqrt 2 <= 142 / 100.
Proof.
  split.
  - rewrite <- (sqrt_square (141 / 100)) by lra. apply sqrt_le_1_alt. lra.
  - rewrite <- (sqrt_square (142 / 100)) by lra. apply sqrt_le_1_alt. lra.
Qed.

Lemma rel_scale a b A B u : 0 <= a <= A * u -> 0 <= b <= B * u -> 0 <= u <= 1 / 10 ^ 7 -> 0 <= A <= 10 -> 0 <= B <= 10 ->
  0 <= a + b + a * b <= (A + B + 1 / 10 ^ 5) * u.
Proof.
  intros Ha Hb Hu HA HB. pose proof (Rmult_le_pos a b ltac:(lra) ltac:(lra)).
  assert (a <= 10 * u) by (eapply Rle_trans; [apply Ha|apply Rmult_le_compat_r; lra]).
  assert (b <= 1 / 10 ^ 6).
  { eapply Rle_trans; [apply Hb|]. eapply Rle_trans; [apply Rmult_le_compat_r; [lra|apply HB]|]. lra. }
  assert (a * b <= (10 * u) * (1 / 10 ^ 6)) by (apply Rmult_le_compat; lra).
  split; [lra|]. rewrite !Rmult_plus_distr_r. lra.
Qed.
Lemma u32_small : 0 <= u32 <= 1 / 10 ^ 7.
Proof. unfold u32. cbn [bpow]. simpl. lra. Qed.
Lemma chain_bound :
  e32 + e64 + e32 * e64 + e64 + (e32 + e64 + e32 * e64) * e64 + e32 +
  (e32 + e64 + e32 * e64 + e64 + (e32 + e64 + e32 * e64) * e64) * e32 + e64 +
  (e32 + e64 + e32 * e64 + e64 + (e32 + e64 + e32 * e64) * e64 + e32 +
   (e32 + e64 + e32 * e64 + e64 + (e32 + e64 + e32 * e64) * e64) * e32) * e64 + e64 +
  (e32 + e64 + e32 * e64 + e64 + (e32 + e64 + e32 * e64) * e64 + e32 +
   (e32 + e64 + e32 * e64 + e64 + (e32 + e64 + e32 * e64) * e64) * e32 + e64 +
   (e32 + e64 + e32 * e64 + e64 + (e32 + e64 + e32 * e64) * e64 + e32 +
    (e32 + e64 + e32 * e64 + e64 + (e32 + e64 + e32 * e64) * e64) * e32) * e64) * e64 <= 3 * u32.
Proof.
  pose proof u32_small as U.
  assert (H32 : 0 <= e32 <= 11 / 10 * u32) by (unfold e32, u32; cbn [bpow]; simpl; lra).
  assert (H64 : 0 <= e64 <= 1 / 10 * u32) by (unfold e64, u32; cbn [bpow]; simpl; lra).
  pose proof (rel_scale _ _ _ _ _ H32 H64 U ltac:(lra) ltac:(lra)) as S1.
  pose proof (rel_scale _ _ _ _ _ S1 H64 U ltac:(lra) ltac:(lra)) as S2.
  pose proof (rel_scale _ _ _ _ _ S2 H32 U ltac:(lra) ltac:(lra)) as S3.
  pose proof (rel_scale _ _ _ _ _ S3 H64 U ltac:(lra) ltac:(lra)) as S4.
  pose proof (rel_scale _ _ _ _ _ S4 H64 U ltac:(lra) ltac:(lra)) as S5.
  eapply Rle_trans; [apply S5|]. apply Rmult_le_compat_r; lra.
Qed.

Lemma literal_val q : 1 / 10 ^ 6 <= Rabs (Q2R q) <= 1 ->
  is_finite (f32_sqrt2 (f32_literal q)) = true /\ rel (3 * u32) (B2R (f32_sqrt2 (f32_literal q))) (sqrt 2 * Q2R q).
Proof.
  intros [Hlo Hhi]. pose proof million as ML. pose proof e32_small as E32. pose proof e64_small as E64.
  pose proof (sticky_val q) as S. cbv zeta in S.
  set (n := (Qnum q * 2 ^ 100)%Z) in *. set (d := Zpos (Qden q)) in *.
  set (v0 := F2R (Float radix2 (2 * (n / d) + (if n mod d =? 0 then 0 else 1))%Z (-101))) in *.
  assert (R0 : rel e64 v0 (Q2R q)).
  { unfold rel. eapply Rle_trans; [exact S|]. apply Rle_trans with (e64 * bp (-20)).
    - unfold e64. rewrite <- bpow_plus. apply bpow_le. lia.
    - apply Rmult_le_compat_l; lra. }
  pose proof (rel_abs _ _ _ (proj1 E64) R0) as A0.
  assert (B0 : Rabs v0 <= 11 / 10 /\ bp (-21) <= Rabs v0).
  { split; [nra|]. apply Rle_trans with (bp (-20) / 2).
    - change (-20)%Z with (1 + -21)%Z. rewrite bpow_plus. change (bp 1) with 2. lra.
    - assert (bp (-20) <= Rabs (Q2R q)) by lra. pose proof (bp_pos (-20)). nra. }
  (* the double *)
  assert (V1 : B2R (f64_of_literal q) = r64 v0 /\ is_finite (f64_of_literal q) = true).
  { unfold f64_of_literal. fold n d.
    pose proof (binary_normalize_correct 53 1024 _ _ mode_NE (2 * (n / d) + (if (n mod d =? 0)%Z then 0 else 1))%Z (-101) false) as N.
    cbv zeta in N. fold v0 in N. rewrite Rlt_bool_true in N; [tauto|].
    apply Rle_lt_trans with (bp 1); [|apply bpow_lt; lia].
    apply abs_round_le_generic; [apply FLT_exp_valid; reflexivity|apply valid_rnd_round_mode| |change (bp 1) with 2; lra].
    apply generic_format_bpow. unfold SpecFloat.fexp, SpecFloat.emin. lia. }
  destruct V1 as [V1 F1].
  assert (P30 : bp (-30) <= bp (-22)) by (apply bpow_le; lia).
  assert (P21 : bp (-21) = 2 * bp (-22)) by (change (-21)%Z with (1 + -22)%Z; rewrite bpow_plus; reflexivity).
  pose proof (bp_pos (-22)) as PP.
  assert (R1 : rel e64 (r64 v0) v0) by (apply r64_rel'; lra).
  pose proof (rel_abs _ _ _ (proj1 E64) R1) as A1.
  assert (B1 : Rabs (r64 v0) <= 12 / 10 /\ bp (-22) * (19/10) <= Rabs (r64 v0)) by (split; nra).
  (* the float *)
  destruct (narrow (f64_of_literal q) F1) as [V2 F2]; [rewrite V1; lra|].
  fold (f32_literal q) in V2, F2. rewrite V1 in V2.
  assert (R2 : rel e32 (r32 (r64 v0)) (r64 v0)) by (apply r32_rel; lra).
  pose proof (rel_abs _ _ _ (proj1 E32) R2) as A2.
  assert (B2 : Rabs (r32 (r64 v0)) <= 13 / 10 /\ bp (-22) * (18/10) <= Rabs (r32 (r64 v0))) by (split; nra).
  destruct (widen_val _ F2) as [V3 F3]. rewrite V2 in V3.
  (* sqrt 2 *)
  pose proof sqrt2_bounds as Q2.
  assert (P30' : bp (-30) <= 1) by (change 1 with (bp 0); apply bpow_le; lia).
  assert (R4 : rel e64 (r64 (sqrt 2)) (sqrt 2)) by (apply r64_rel'; rewrite Rabs_pos_eq by apply sqrt_pos; lra).
  pose proof (rel_abs _ _ _ (proj1 E64) R4) as A4. rewrite (Rabs_pos_eq (sqrt 2)) in A4 by apply sqrt_pos.
  assert (V4 : B2R (Bsqrt mode_NE (f64_of_int 2)) = r64 (sqrt 2) /\ is_finite (Bsqrt mode_NE (f64_of_int 2)) = true).
  { destruct (val_int64 2 ltac:(lia)) as [E2 FE2].
    destruct (Bsqrt_correct 53 1024 _ _ mode_NE (f64_of_int 2)) as (S1 & S2 & _). rewrite E2 in S1. split; auto. }
  destruct V4 as [V4 F4].
  set (s1 := r64 (sqrt 2)) in *. set (v2 := r32 (r64 v0)) in *.
  (* the product *)
  assert (BP : Rabs (s1 * v2) <= 19 / 10 /\ bp (-22) * 2 <= Rabs (s1 * v2)).
  { rewrite Rabs_mult. assert (14 / 10 <= Rabs s1 <= 143 / 100) by nra. split; [nra|].
    apply Rle_trans with (14 / 10 * (bp (-22) * (18 / 10))); [lra|]. apply Rmult_le_compat; lra. }
  pose proof (Bmult_correct 53 1024 _ _ mode_NE (Bsqrt mode_NE (f64_of_int 2)) (f64_of_f32 (f32_literal q))) as M.
  rewrite V4, V3, F4, F3 in M. cbv zeta in M.
  rewrite Rlt_bool_true in M.
  2:{ apply Rle_lt_trans with (bp 1); [|apply bpow_lt; lia].
      apply abs_round_le_generic; [apply FLT_exp_valid; reflexivity|apply valid_rnd_round_mode| |change (bp 1) with 2; lra].
      apply generic_format_bpow. unfold SpecFloat.fexp, SpecFloat.emin. lia. }
  destruct M as (M1 & M2 & _). cbn [andb] in M2.
  assert (R5 : rel e64 (r64 (s1 * v2)) (s1 * v2)) by (apply r64_rel'; lra).
  pose proof (rel_abs _ _ _ (proj1 E64) R5) as A5.
  destruct (narrow _ M2) as [V6 F6]; [rewrite M1; nra|].
  fold (f32_sqrt2 (f32_literal q)) in V6, F6. rewrite M1 in V6.
  assert (R6 : rel e32 (r32 (r64 (s1 * v2))) (r64 (s1 * v2))) by (apply r32_rel; nra).
  split; [exact F6|]. rewrite V6.
  (* compose *)
  pose proof (rel_trans _ _ _ _ _ (proj1 E32) R6 R5) as T1.
  assert (R4' : rel e64 (s1 * v2) (sqrt 2 * v2)).
  { rewrite !(Rmult_comm _ v2). apply rel_mult; auto. }
  epose proof (rel_trans _ _ _ _ _ _ T1 R4') as T2.
  pose proof (rel_mult _ _ _ (sqrt 2) R2) as R2'. fold v2 in R2'.
  epose proof (rel_trans _ _ _ _ _ _ T2 R2') as T3.
  pose proof (rel_mult _ _ _ (sqrt 2) R1) as R1'.
  epose proof (rel_trans _ _ _ _ _ _ T3 R1') as T4.
  pose proof (rel_mult _ _ _ (sqrt 2) R0) as R0'.
  epose proof (rel_trans _ _ _ _ _ _ T4 R0') as T5.
  eapply rel_weak; [|exact T5].
  apply chain_bound.
  Unshelve. all: repeat apply rel_pos; lra.
Qed.
