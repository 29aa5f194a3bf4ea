(** * P_SfEqual: the matrix read back compares equal *)
Require Import List ZArith Bool Lia ZifyBool Reals Lra.
Require Import Flocq.Core.Core Flocq.IEEE754.BinarySingleNaN Flocq.Prop.Sterbenz.
Import ListNotations.
From Verif Require Import M_Base P_Base M_Float P_Float M_Archive P_Archive M_Sf M_SfCodec S_SfCodec P_SfFloat P_SfValue M_SfEqual.
Open Scope Z_scope.

Lemma zlist_eqb_refl l : zlist_eqb l l = true.
Proof. induction l as [|x l IH]; [reflexivity|]. cbn. rewrite Z.eqb_refl. exact IH. Qed.

(** normal floats *)
Lemma of_word_normal w : normal w -> B2R (f32_of_word w) = float_value w /\ is_finite (f32_of_word w) = true.
Proof.
  intros Hn. unfold normal in Hn. pose proof (wbits_range w) as Hw. unfold f32_of_word, float_value.
  set (m := wbits w mod 2 ^ 31) in *.
  assert (He : 1 <= m / 2 ^ 23 < 255).
  { split; [apply Z.div_le_lower_bound; lia|apply Z.div_lt_upper_bound; lia]. }
  pose proof (Z.mod_pos_bound m (2 ^ 23) ltac:(lia)) as Hf.
  set (e := m / 2 ^ 23) in *. set (f := m mod 2 ^ 23) in *. clearbody e f m.
  replace (e =? 255) with false by lia. replace (e =? 0) with false by lia.
  set (s := 2 ^ 31 <=? wbits w).
  pose proof (binary_normalize_correct 24 128 _ _ mode_NE (cond_Zopp s (2 ^ 23 + f)) (e - 150) s) as H. cbv zeta in H.
  change (F2R (Float radix2 (cond_Zopp s (2 ^ 23 + f)) (e - 150))) with (IZR (cond_Zopp s (2 ^ 23 + f)) * bpow radix2 (e - 150))%R in H.
  assert (Hz : Z.abs (cond_Zopp s (2 ^ 23 + f)) < 2 ^ 24) by (destruct s; cbn [cond_Zopp]; lia).
  rewrite round_generic in H.
  2:{ apply valid_rnd_round_mode. }
  2:{ apply generic_format_FLT. exists (Float radix2 (cond_Zopp s (2 ^ 23 + f)) (e - 150)); [reflexivity|exact Hz|].
      cbn [Fexp]. unfold SpecFloat.emin. lia. }
  rewrite Rlt_bool_true in H.
  - destruct H as (H1 & H2 & _). split; [|exact H2]. rewrite H1.
    replace (wbits w <? 2 ^ 31) with (negb s) by (unfold s; lia).
    rewrite bpow_powerRZ. change (IZR radix2) with 2%R. destruct s; cbn [cond_Zopp negb].
    + rewrite opp_IZR. ring.
    + ring.
  - rewrite Rabs_mult, (Rabs_pos_eq (bpow _ _)) by apply bpow_ge_0. rewrite <- abs_IZR.
    apply Rlt_le_trans with (bpow radix2 24 * bpow radix2 (e - 150))%R.
    + apply Rmult_lt_compat_r; [apply bpow_gt_0|]. rewrite <- IZR_Zpower by lia. apply IZR_lt. exact Hz.
    + rewrite <- bpow_plus. apply bpow_le. lia.
Qed.

(** float to double *)
Lemma widen_exact (x : f32) : is_finite x = true -> B2R (f64_of_f32 x) = B2R x /\ is_finite (f64_of_f32 x) = true.
Proof.
  destruct x as [s|s| |s m e H]; intros F; try discriminate; [split; reflexivity|]. cbn [f64_of_f32 B2R].
  clear F. pose proof H as H'. apply andb_prop in H' as (H1 & H2). apply Zeq_bool_eq in H1. apply Zle_bool_imp_le in H2.
  pose proof (binary_normalize_correct 53 1024 _ _ mode_NE (cond_Zopp s (Zpos m)) e s) as N. cbv zeta in N.
  change (F2R (Float radix2 (cond_Zopp s (Zpos m)) e)) with (IZR (cond_Zopp s (Zpos m)) * bpow radix2 e)%R in *.
  assert (B : Zpos m < 2 ^ 24 /\ -149 <= e).
  { unfold SpecFloat.canonical_mantissa, SpecFloat.fexp, SpecFloat.emin in H1. rewrite Digits.Zpos_digits2_pos in H1.
    pose proof (Digits.Zdigits_correct radix2 (Zpos m)) as (_ & D). change (Z.abs (Zpos m)) with (Zpos m) in D.
    split; [|lia]. eapply Z.lt_le_trans; [exact D|]. apply (Z.pow_le_mono_r 2); lia. }
  rewrite r64_exact in N by (destruct s; cbn [cond_Zopp]; lia).
  rewrite Rlt_bool_true in N.
  - destruct N as (N1 & N2 & _). split; auto.
  - apply small_exact; destruct s; cbn [cond_Zopp]; lia.
Qed.

Lemma tolerance_val fl : 7 <= fl <= 23 ->
  (bpow radix2 (- (fl + 1)) <= B2R (tolerance fl))%R /\ is_finite (tolerance fl) = true.
Proof.
  intros Hfl. unfold tolerance.
  assert (P : 2 ^ 8 <= 2 ^ (fl + 1) <= 2 ^ 24) by (split; apply Z.pow_le_mono_r; lia).
  destruct (pow2d_val (fl + 1) ltac:(lia)) as (E1 & F1). destruct (of_int64 2 ltac:(cbn; lia)) as (E2 & F2).
  destruct (of_int64 1 ltac:(cbn; lia)) as (E3 & F3).
  destruct (sub_int _ _ _ _ E1 F1 E2 F2 ltac:(lia)) as (E4 & F4).
  destruct (div_val _ _ 1 (2 ^ (fl + 1) - 2) E3 F3 E4 F4 ltac:(lia) ltac:(lia)) as (E5 & F5).
  split; [|exact F5]. rewrite E5.
  replace (bpow radix2 (- (fl + 1))) with (r64 (1 * bpow radix2 (- (fl + 1)))).
  2:{ rewrite r64_exact by lia. ring. }
  apply r64_le. rewrite bpow_opp, <- IZR_Zpower by lia. change (radix_val radix2) with 2.
  unfold Rdiv. apply Rmult_le_compat_l; [lra|]. apply Rinv_le_contravar; apply IZR_lt || apply IZR_le; lia.
Qed.

Lemma near_exact x y : generic_format radix2 (SpecFloat.fexp 24 128) x -> generic_format radix2 (SpecFloat.fexp 24 128) y ->
  (Rabs (y - x) <= Rabs x / 2)%R -> generic_format radix2 (SpecFloat.fexp 24 128) (x - y).
Proof.
  intros Fx Fy H.
  assert (V : Valid_exp (SpecFloat.fexp 24 128)) by (apply FLT_exp_valid; reflexivity).
  assert (M : Monotone_exp (SpecFloat.fexp 24 128)) by (apply FLT_exp_monotone).
  destruct (Rle_lt_dec 0 x) as [Hx|Hx].
  - rewrite (Rabs_pos_eq x Hx) in H. apply Rabs_le_inv in H.
    replace (x - y)%R with (- (y - x))%R by ring. apply generic_format_opp. apply sterbenz; auto. lra.
  - rewrite (Rabs_left x Hx) in H. apply Rabs_le_inv in H.
    replace (x - y)%R with (- y - - x)%R by ring. apply sterbenz; auto; try (apply generic_format_opp; auto). lra.
Qed.

Lemma close_enough fl (x y : f32) : 7 <= fl <= 23 -> is_finite x = true -> is_finite y = true -> B2R x <> 0%R ->
  (Rabs (B2R y - B2R x) <= Rabs (B2R x) * bpow radix2 (- (fl + 1)))%R -> too_far fl x y = false.
Proof.
  intros Hfl Fx Fy Nx H. unfold too_far. destruct (tolerance_val fl Hfl) as (T & FT).
  assert (P0 : (0 < Rabs (B2R x))%R) by (apply Rabs_pos_lt; auto).
  assert (Hb : (bpow radix2 (- (fl + 1)) <= / 2)%R).
  { change (/ 2)%R with (bpow radix2 (-1)). apply bpow_le. lia. }
  assert (G : generic_format radix2 (SpecFloat.fexp 24 128) (B2R x - B2R y)).
  { apply near_exact; try apply generic_format_B2R. nra. }
  pose proof (Bminus_correct 24 128 _ _ mode_NE x y Fx Fy) as S.
  rewrite round_generic in S by (auto; apply valid_rnd_round_mode).
  assert (HD : (Rabs (B2R x - B2R y) <= Rabs (B2R x) * bpow radix2 (- (fl + 1)))%R).
  { rewrite Rabs_minus_sym. exact H. }
  rewrite Rlt_bool_true in S.
  2:{ eapply Rle_lt_trans; [exact HD|]. eapply Rle_lt_trans; [|apply (abs_B2R_lt_emax 24 128 x)]. nra. }
  destruct S as (S1 & S2 & _). set (d := Bminus mode_NE x y) in *.
  pose proof (Bdiv_correct 24 128 _ _ mode_NE d x Nx) as D. rewrite S1 in D.
  assert (HQ : (Rabs (round radix2 (SpecFloat.fexp 24 128) (round_mode mode_NE) ((B2R x - B2R y) / B2R x)) <= bpow radix2 (- (fl + 1)))%R).
  { apply abs_round_le_generic.
    - apply FLT_exp_valid. reflexivity.
    - apply valid_rnd_round_mode.
    - apply generic_format_bpow. unfold SpecFloat.fexp, SpecFloat.emin. lia.
    - unfold Rdiv. rewrite Rabs_mult, Rabs_inv by auto. apply Rmult_le_reg_r with (Rabs (B2R x)); [exact P0|].
      rewrite Rmult_assoc, Rinv_l by lra. rewrite Rmult_1_r, Rmult_comm. rewrite Rmult_comm. lra. }
  rewrite Rlt_bool_true in D.
  2:{ eapply Rle_lt_trans; [exact HQ|]. apply bpow_lt. lia. }
  destruct D as (D1 & D2 & _). set (q := Bdiv mode_NE d x) in *.
  assert (Fq : is_finite (Babs q) = true) by (rewrite is_finite_Babs; congruence).
  destruct (widen_exact (Babs q) Fq) as (W1 & W2).
  rewrite ltb_val by auto. rewrite W1, B2R_Babs, D1. apply Rlt_bool_false. lra.
Qed.

Lemma kept_equal fl w : 7 <= fl <= 23 -> normal w -> normal (kept fl w) ->
  too_far fl (f32_of_word w) (f32_of_word (kept fl w)) = false.
Proof.
  intros Hfl Hn Hk. destruct (of_word_normal w Hn) as (E1 & F1). destruct (of_word_normal _ Hk) as (E2 & F2).
  apply close_enough; auto.
  - rewrite E1. unfold float_value. pose proof (wbits_range w). unfold normal in Hn.
    pose proof (Z.mod_pos_bound (wbits w mod 2 ^ 31) (2 ^ 23) ltac:(lia)).
    repeat apply Rmult_integral_contrapositive_currified.
    + destruct (_ <? _)%Z; lra.
    + apply IZR_neq. lia.
    + apply Rgt_not_eq. apply powerRZ_lt. lra.
  - rewrite E1, E2. eapply Rle_trans; [apply kept_close; auto|].
    unfold Rdiv. apply Rmult_le_compat_l; [apply Rabs_pos|]. rewrite bpow_opp, <- IZR_Zpower by lia.
    change (radix_val radix2) with 2. rewrite <- (Z2Nat.id (fl + 1)) at 2 by lia. rewrite <- pow_IZR. apply Rle_refl.
Qed.

Theorem read_back_equal o : 7 <= o_frag o <= 23 ->
  Forall (fun w => normal w /\ normal (kept (o_frag o) w)) (o_values o) -> origin_eqb o (read_back o) = true.
Proof.
  intros Hfl HV. unfold origin_eqb, read_back. cbn [o_frag o_row_based o_rows o_cols o_indexes o_values].
  rewrite !Z.eqb_refl, Bool.eqb_reflx, zlist_eqb_refl, map_length, Nat.eqb_refl. cbn [andb].
  apply forallb_forall. intros (a, b) Hin. cbn [fst snd].
  assert (X : In a (o_values o) /\ b = kept (o_frag o) a).
  { revert Hin. generalize (o_values o). intros l. induction l as [|x l IH]; cbn; [tauto|].
    intros [E|H]; [inversion E; auto|]. destruct (IH H). auto. }
  destruct X as (Ha & ->). rewrite Forall_forall in HV. destruct (HV a Ha). rewrite kept_equal by auto. reflexivity.
Qed.

Lemma zlist_eqb_eq a : forall b, zlist_eqb a b = true -> a = b.
Proof.
  induction a as [|x a IH]; intros [|y b] H; cbn in H; try discriminate; [reflexivity|].
  apply andb_prop in H as (H1 & H2). apply Z.eqb_eq in H1. f_equal; auto.
Qed.
Lemma equal_layout a b : origin_eqb a b = true ->
  o_frag a = o_frag b /\ o_row_based a = o_row_based b /\ o_rows a = o_rows b /\ o_cols a = o_cols b /\
  o_indexes a = o_indexes b /\ length (o_values a) = length (o_values b).
Proof.
  unfold origin_eqb. destruct (_ && _) eqn:E; [|discriminate]. intros _.
  repeat (apply andb_prop in E; destruct E as (E & ?)).
  repeat split; try (apply Z.eqb_eq; auto); try (apply Nat.eqb_eq; auto).
  - apply Bool.eqb_prop. auto.
  - apply zlist_eqb_eq. auto.
Qed.
