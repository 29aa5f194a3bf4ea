(** * P_Lossy2: Decompose, Serialize with compression, Parse, Compose *)
Require Import List Bool Arith ZArith QArith Qreals Lia Reals Lra.
Require Import ZifyBool.
Require Import Flocq.Core.Core Flocq.IEEE754.BinarySingleNaN.
Require Import Verif.M_Base Verif.M_Params Verif.M_Buffer Verif.M_Real Verif.M_Float Verif.M_Binary32 Verif.M_Denoise.
Require Import Verif.M_Archive Verif.M_Serializer Verif.M_SfCodec Verif.M_SfEqual.
Require Import Verif.S_Params Verif.S_Buffer Verif.S_Exact Verif.S_Round Verif.S_Stable Verif.S_Serializer Verif.S_Lossy.
Require Import Verif.P_Base Verif.P_Buffer Verif.P_Impl Verif.P_Api Verif.P_Api2 Verif.P_Blob.
Require Import Verif.P_Sum Verif.P_L2 Verif.P_Rec Verif.P_Exact Verif.P_Round Verif.P_Round2 Verif.P_Round3.
Require Import Verif.P_Float Verif.P_Binary32 Verif.P_Bin2 Verif.P_Bin3.
Require Import Verif.P_Stable Verif.P_Stable2 Verif.P_Dual Verif.P_Dual2 Verif.P_Dual3 Verif.P_Acc Verif.P_BinMove Verif.P_BinMove2 Verif.P_Lossy.
Import ListNotations.
Open Scope R_scope.

(** ** norms *)
Lemma root_add d e D1 D2 E1 E2 N1 N2 : 0 <= d -> 0 <= e -> 0 <= D1 -> 0 <= D2 -> 0 <= E1 -> 0 <= E2 -> 0 <= N1 -> 0 <= N2 ->
  sqrt D1 <= d * sqrt E1 + e * sqrt N1 -> sqrt D2 <= d * sqrt E2 + e * sqrt N2 ->
  sqrt (D1 + D2) <= d * sqrt (E1 + E2) + e * sqrt (N1 + N2).
Proof.
  intros Hd He HD1 HD2 HE1 HE2 HN1 HN2 H1 H2.
  pose proof (sqrt_pos D1). pose proof (sqrt_pos D2). pose proof (sqrt_pos E1) as a0. pose proof (sqrt_pos E2) as b0.
  pose proof (sqrt_pos N1) as c0. pose proof (sqrt_pos N2) as d0. pose proof (sqrt_pos (E1 + E2)). pose proof (sqrt_pos (N1 + N2)).
  apply sqrt_le_by.
  { apply Rplus_le_le_0_compat; apply Rmult_le_pos; auto. }
  assert (C : sqrt E1 * sqrt N1 + sqrt E2 * sqrt N2 <= sqrt (E1 + E2) * sqrt (N1 + N2)).
  { apply Rsqr_incr_0_var; [|apply Rmult_le_pos; auto]. unfold Rsqr.
    pose proof (sqrt_sqrt E1 HE1). pose proof (sqrt_sqrt E2 HE2). pose proof (sqrt_sqrt N1 HN1). pose proof (sqrt_sqrt N2 HN2).
    pose proof (sqrt_sqrt (E1 + E2) ltac:(lra)) as X. pose proof (sqrt_sqrt (N1 + N2) ltac:(lra)) as Y.
    set (x1 := sqrt E1) in *. set (x2 := sqrt E2) in *. set (y1 := sqrt N1) in *. set (y2 := sqrt N2) in *.
    set (x := sqrt (E1 + E2)) in *. set (y := sqrt (N1 + N2)) in *.
    replace (x * y * (x * y)) with ((x * x) * (y * y)) by ring. rewrite X, Y.
    replace E1 with (x1 * x1) by auto. replace E2 with (x2 * x2) by auto. replace N1 with (y1 * y1) by auto. replace N2 with (y2 * y2) by auto.
    pose proof (Rle_0_sqr (x1 * y2 - x2 * y1)) as S. unfold Rsqr in S. lra. }
  assert (Q1 : D1 <= (d * sqrt E1 + e * sqrt N1) * (d * sqrt E1 + e * sqrt N1)).
  { rewrite <- (sqrt_sqrt D1 HD1) at 1. apply Rmult_le_compat; auto. }
  assert (Q2 : D2 <= (d * sqrt E2 + e * sqrt N2) * (d * sqrt E2 + e * sqrt N2)).
  { rewrite <- (sqrt_sqrt D2 HD2) at 1. apply Rmult_le_compat; auto. }
  pose proof (sqrt_sqrt E1 HE1). pose proof (sqrt_sqrt E2 HE2). pose proof (sqrt_sqrt N1 HN1). pose proof (sqrt_sqrt N2 HN2).
  pose proof (sqrt_sqrt (E1 + E2) ltac:(lra)). pose proof (sqrt_sqrt (N1 + N2) ltac:(lra)).
  assert (M : d * e * (sqrt E1 * sqrt N1 + sqrt E2 * sqrt N2) <= d * e * (sqrt (E1 + E2) * sqrt (N1 + N2))).
  { apply Rmult_le_compat_l; auto. apply Rmult_le_pos; auto. }
  set (x1 := sqrt E1) in *. set (x2 := sqrt E2) in *. set (y1 := sqrt N1) in *. set (y2 := sqrt N2) in *.
  set (x := sqrt (E1 + E2)) in *. set (y := sqrt (N1 + N2)) in *.
  replace ((d * x + e * y) * (d * x + e * y)) with (d * d * (x * x) + e * e * (y * y) + 2 * (d * e * (x * y))) by ring.
  replace ((d * x1 + e * y1) * (d * x1 + e * y1)) with (d * d * (x1 * x1) + e * e * (y1 * y1) + 2 * (d * e * (x1 * y1))) in Q1 by ring.
  replace ((d * x2 + e * y2) * (d * x2 + e * y2)) with (d * d * (x2 * x2) + e * e * (y2 * y2) + 2 * (d * e * (x2 * y2))) in Q2 by ring.
  replace (x * x) with (E1 + E2) by lra. replace (y * y) with (N1 + N2) by lra.
  replace (x1 * x1) with E1 in Q1 by lra. replace (y1 * y1) with N1 in Q1 by lra.
  replace (x2 * x2) with E2 in Q2 by lra. replace (y2 * y2) with N2 in Q2 by lra.
  lra.
Qed.

(** triangle inequality *)
Lemma gap_triangle : forall a b c : list R, length a = length b -> length b = length c ->
  sqrt (gap a c) <= sqrt (gap a b) + sqrt (gap b c).
Proof.
  intros a b c H1 H2. rewrite <- (Rmult_1_l (sqrt (gap a b))), <- (Rmult_1_l (sqrt (gap b c))). revert b c H1 H2.
  induction a as [|x a IH]; intros [|y b] [|z c] H1 H2; try discriminate; cbn [gap]; [rewrite sqrt_0; lra|].
  apply root_add; auto using gap_nonneg; try lra; try apply Rle_0_sqr.
  change (sqrt (Rsqr (z - x)) <= 1 * sqrt (Rsqr (y - x)) + 1 * sqrt (Rsqr (z - y))). rewrite !sqrt_Rsqr_abs, !Rmult_1_l.
  replace (z - x) with ((y - x) + (z - y)) by ring. apply Rabs_triang.
Qed.
Lemma distance_triangle : forall a b c : list (mat R), Forall2 (fun m m' => length (elts m) = length (elts m')) a b ->
  Forall2 (fun m m' => length (elts m) = length (elts m')) b c ->
  sqrt (distance2 a c) <= sqrt (distance2 a b) + sqrt (distance2 b c).
Proof.
  intros a b c H1 H2. rewrite <- (Rmult_1_l (sqrt (distance2 a b))), <- (Rmult_1_l (sqrt (distance2 b c))). revert c H2.
  induction H1 as [|x y a b L H1 IH]; intros c H2; inversion H2; subst; cbn [distance2]; [rewrite sqrt_0; lra|].
  apply root_add; auto using gap_nonneg, distance2_nonneg; try lra.
  rewrite !Rmult_1_l. apply gap_triangle; auto.
Qed.
Lemma Forall2_length_nested (a b : list (mat f32)) : Forall2 (fun d d' => kept (elts d) (elts d')) a b ->
  Forall2 (fun m m' => length (elts m) = length (elts m')) (map values a) (map values b).
Proof.
  intros H. induction H as [|x y l l' H _ IH]; constructor; auto. unfold values; cbn [elts]. rewrite !map_length.
  clear -H. induction H; cbn; auto.
Qed.

Lemma energy_ge0 m : 0 <= energy m.
Proof. unfold energy. induction (elts m) as [|a l IH]; [apply Rle_refl|]. cbn [fold_right]. pose proof (Rle_0_sqr a). unfold Rsqr in *. lra. Qed.
Lemma channel_energy_ge0 ch : 0 <= channel_energy ch.
Proof. induction ch as [|m l IH]; [apply Rle_refl|]. cbn [channel_energy fold_right]. pose proof (energy_ge0 m). unfold channel_energy in *. lra. Qed.

Section Map.
Variable g : f32 -> f32.
Variables d e : R.
Hypothesis Hd : 0 <= d.
Hypothesis He : 0 <= e.
Hypothesis Hg : forall x : f32, is_finite x = true -> is_finite (g x) = true /\ Rabs (B2R (g x) - B2R x) <= d * Rabs (B2R x) + e.

Lemma map_moves m : all_finite m ->
  sqrt (gap (elts (values m)) (elts (values (map_mat g m)))) <= d * sqrt (energy (values m)) + e * sqrt (INR (length (elts m))) /\
  sqrt (energy (values (map_mat g m))) <= (1 + d) * sqrt (energy (values m)) + e * sqrt (INR (length (elts m))) /\
  all_finite (map_mat g m).
Proof.
  unfold all_finite, energy, values, map_mat. cbn [elts rows cols]. induction (elts m) as [|x l IH]; intros HF.
  - cbn. rewrite sqrt_0. split; [lra|]. split; [lra|constructor].
  - inversion HF; subst. destruct IH as (I1 & I2 & I3); auto. destruct (Hg x) as (G1 & G2); auto.
    cbn [map gap fold_right length]. rewrite S_INR.
    assert (N : forall r : list R, 0 <= fold_right (fun x s => x * x + s) 0 r).
    { clear. induction r as [|a l IH]; [apply Rle_refl|]. cbn [fold_right]. pose proof (Rle_0_sqr a). unfold Rsqr in *. lra. }
    rewrite (Rplus_comm (INR _) 1).
    split; [|split; [|constructor; auto]].
    + apply root_add; auto using gap_nonneg, pos_INR; try lra; try apply Rle_0_sqr.
      rewrite sqrt_1. change (sqrt (Rsqr (B2R (g x) - B2R x)) <= d * sqrt (Rsqr (B2R x)) + e * 1).
      rewrite !sqrt_Rsqr_abs. lra.
    + apply root_add; auto using pos_INR; try lra; try apply Rle_0_sqr.
      rewrite sqrt_1. change (sqrt (Rsqr (B2R (g x))) <= (1 + d) * sqrt (Rsqr (B2R x)) + e * 1).
      rewrite !sqrt_Rsqr_abs. pose proof (Rabs_triang (B2R (g x) - B2R x) (B2R x)) as T.
      replace (B2R (g x) - B2R x + B2R x) with (B2R (g x)) in T by ring. lra.
Qed.
Lemma map_moves_channel (ch : list (mat f32)) : Forall all_finite ch ->
  sqrt (distance2 (map values ch) (map values (map (map_mat g) ch)))
    <= d * sqrt (channel_energy (map values ch)) + e * sqrt (INR (coefficient_count ch)) /\
  sqrt (channel_energy (map values (map (map_mat g) ch)))
    <= (1 + d) * sqrt (channel_energy (map values ch)) + e * sqrt (INR (coefficient_count ch)) /\
  Forall all_finite (map (map_mat g) ch).
Proof.
  induction ch as [|m l IH]; intros HF.
  - cbn. rewrite sqrt_0. split; [lra|]. split; [lra|constructor].
  - inversion HF; subst. destruct IH as (I1 & I2 & I3); auto. destruct (map_moves m) as (M1 & M2 & M3); auto.
    unfold coefficient_count. cbn [map distance2 channel_energy fold_right list_sum]. rewrite plus_INR.
    fold (list_sum (map (fun m => length (elts m)) l)). fold (coefficient_count l).
    fold (channel_energy (map values l)). fold (channel_energy (map values (map (map_mat g) l))).
    split; [|split; [|constructor; auto]]; apply root_add; auto using gap_nonneg, distance2_nonneg, energy_ge0, channel_energy_ge0, pos_INR; lra.
Qed.
End Map.

Lemma map_layout {T U} p (f : T -> U) (ch : list (mat T)) : has_layout p ch -> has_layout p (map (map_mat f) ch).
Proof.
  assert (Z : forall r c (m : mat T), sized r c m -> sized r c (map_mat f m)).
  { intros r c m (W & Er & Ec). split; [|split; auto]. unfold mwf, map_mat; cbn [rows cols elts]. rewrite map_length. exact W. }
  intros (H1 & H2 & H3). split; [rewrite map_length; exact H1|]. split.
  - intros s i m Hs Hi E. rewrite nth_error_map in E. destruct (nth_error ch (s * bands p + i)) eqn:E'; inversion E; subst m.
    apply Z. eapply H2; eauto.
  - intros m E. rewrite nth_error_map in E. destruct (nth_error ch (nsteps p * bands p)) eqn:E'; inversion E; subst m.
    apply Z. apply H3; auto.
Qed.

(** ** a decomposed channel has as many coefficients as the padded signal has samples *)
Lemma round_half k n s : (s < k)%nat -> (round_up k n / 2 ^ s = 2 * (round_up k n / 2 ^ (s + 1)))%nat.
Proof.
  intros H. unfold round_up. set (q := ((n + 2 ^ k - 1) / 2 ^ k)%nat).
  assert (P : forall j, (j <= k)%nat -> (2 ^ k * q / 2 ^ j = 2 ^ (k - j) * q)%nat).
  { intros j Hj. replace k with (k - j + j)%nat at 1 by lia. rewrite Nat.pow_add_r.
    replace (2 ^ (k - j) * 2 ^ j * q)%nat with (2 ^ (k - j) * q * 2 ^ j)%nat by ring. apply Nat.div_mul. apply Nat.pow_nonzero. lia. }
  rewrite !P by lia. replace (k - s)%nat with (S (k - (s + 1))) by lia. cbn [Nat.pow]. ring.
Qed.
Lemma level_area p s : (s < nsteps p)%nat ->
  (level_rows p s * level_cols p s = (bands p + 1) * (level_rows p (s + 1) * level_cols p (s + 1)))%nat.
Proof.
  intros H. unfold level_rows, level_cols, bands. rewrite (round_half (nsteps p) (drows p) s) by auto.
  destruct (is_1d p); [lia|]. rewrite (round_half (nsteps p) (dcols p) s) by auto. lia.
Qed.
Lemma list_sum_same {X} (f : X -> nat) l a : (forall x, In x l -> f x = a) -> list_sum (map f l) = (length l * a)%nat.
Proof. induction l as [|x l IH]; intros H; [reflexivity|]. cbn [map list_sum fold_right length]. change (fold_right Init.Nat.add 0%nat (map f l)) with (list_sum (map f l)). rewrite IH by (intros; apply H; right; auto). rewrite (H x) by (left; auto). lia. Qed.
Lemma nth_skipn {X} n (l : list X) j : nth_error (skipn n l) j = nth_error l (n + j).
Proof. revert l. induction n as [|n IH]; intros [|x l]; auto; [destruct j; reflexivity|]. cbn. apply IH. Qed.
Lemma nth_firstn {X} n (l : list X) j : (j < n)%nat -> nth_error (firstn n l) j = nth_error l j.
Proof. revert l j. induction n as [|n IH]; intros [|x l] [|j] H; auto; try lia. cbn. apply IH. lia. Qed.
Lemma count_layout {T} p (ch : list (mat T)) : has_layout p ch -> coefficient_count ch = (level_rows p 0 * level_cols p 0)%nat.
Proof.
  intros (H1 & H2 & H3). unfold coefficient_count. set (f := fun m : mat T => length (elts m)).
  assert (SZ : forall r c (m : mat T), sized r c m -> f m = (r * c)%nat) by (intros r c m (W & <- & <-); exact W).
  assert (G : forall s, (s <= nsteps p)%nat ->
    (list_sum (map f (firstn (s * bands p) ch)) + level_rows p s * level_cols p s = level_rows p 0 * level_cols p 0)%nat).
  { induction s as [|s IH]; intros Hs; [reflexivity|].
    rewrite <- IH by lia. rewrite (level_area p s) by lia.
    replace (S s * bands p)%nat with (s * bands p + bands p)%nat by lia.
    assert (E : firstn (s * bands p + bands p) ch = firstn (s * bands p) ch ++ firstn (bands p) (skipn (s * bands p) ch)).
    { rewrite <- (firstn_skipn (s * bands p) (firstn (s * bands p + bands p) ch)).
      rewrite firstn_firstn, Nat.min_l by lia. f_equal. rewrite skipn_firstn_comm. f_equal. lia. }
    assert (LB : (s * bands p + bands p <= nsteps p * bands p)%nat) by nia.
    rewrite E, map_app, list_sum_app. rewrite (list_sum_same f (firstn (bands p) _) (level_rows p (s + 1) * level_cols p (s + 1))).
    - rewrite firstn_length_le by (rewrite skipn_length; lia). replace (S s) with (s + 1)%nat by lia. lia.
    - intros m Hm. apply SZ. apply In_nth_error in Hm as (i & Hi).
      assert (Li : (i < bands p)%nat).
      { assert (i < length (firstn (bands p) (skipn (s * bands p) ch)))%nat by (apply nth_error_Some; congruence).
        rewrite firstn_length in H. lia. }
      apply (H2 s i m); [lia|auto|]. rewrite <- Hi, nth_firstn by auto. symmetry. apply nth_skipn. }
  pose proof (G (nsteps p) ltac:(lia)) as GK.
  rewrite <- (firstn_skipn (nsteps p * bands p) ch), map_app, list_sum_app, <- GK. f_equal.
  destruct (nth_error ch (nsteps p * bands p)) as [m|] eqn:Em; [|apply nth_error_None in Em; lia].
  assert (S1 : skipn (nsteps p * bands p) ch = [m]).
  { assert (L : length (skipn (nsteps p * bands p) ch) = 1%nat) by (rewrite skipn_length; lia).
    pose proof (nth_skipn (nsteps p * bands p) ch 0) as Q0. rewrite Nat.add_0_r, Em in Q0.
    destruct (skipn (nsteps p * bands p) ch) as [|a [|? ?]]; try discriminate. inversion Q0. reflexivity. }
  rewrite S1. cbn [map list_sum fold_right]. rewrite (SZ _ _ m (H3 m eq_refl)). lia.
Qed.

Section P.
Variable p : params.
Hypothesis HA : accepted p.
Let HR := A32_rounding.

Lemma stored_energy m : shaped p m -> all_finite m -> padded_energy p (values m) <= 2 ^ 220 ->
  sqrt (channel_energy (map values (@dec_of p f32 binary32 null_denoiser m)))
    <= step_gain u32 p ^ nsteps p * sqrt (padded_energy p (values m)) + underflow u32 eta32 p / 2 /\
  sqrt (channel_energy (map values (@dec_of p f32 binary32 null_denoiser m))) <= 101 / 100 * bp 110 + 1.
Proof.
  intros HS HF HE. rewrite (dec_values p HA m HS HF HE).
  pose proof (dec_energy u32 eta32 A32 HR u32_pos eta32_pos p HA (values m) (shaped_values p m HS)) as H.
  split; [exact H|].
  assert (R0 : sqrt (padded_energy p (values m)) <= bp 110).
  { apply bp_sqrt. change (2 * 110)%Z with (Z.of_nat 220). rewrite bp_nat. exact HE. }
  eapply Rle_trans; [exact H|].
  destruct (float_bounds p HA) as [_ U]. pose proof (K62 p HA) as K. rewrite (K_nsteps p HA) in K.
  assert (U1 : underflow u32 eta32 p <= 1).
  { eapply Rle_trans; [exact U|]. apply le_INR in K. rewrite (INR_IZR_INZ 62) in K. change (Z.of_nat 62) with 62%Z in K.
    assert (62 <= 2 ^ 74). { rewrite <- bp_nat. apply Rle_trans with (bp 6); [cbn [bpow]; simpl; lra|apply bpow_le; lia]. }
    apply (Rmult_le_reg_r (2 ^ 74)); [apply pow_lt; lra|]. unfold Rdiv. rewrite Rmult_assoc, Rinv_l, Rmult_1_r, Rmult_1_l by (apply pow_nonzero; lra). lra. }
  assert (P : step_gain u32 p ^ nsteps p <= 101 / 100).
  { destruct (Z.eq_dec (wtype p) 0) as [E0|Ht].
    - apply (acc_none p HA) in E0. unfold nsteps. rewrite E0. simpl. lra.
    - destruct (P_Bin3.gain_pow p HA (nsteps p) Ht) as [_ G]. destruct (G ltac:(lia)) as [G1 _].
      eapply Rle_trans; [exact G1|]. apply le_INR in K. rewrite (INR_IZR_INZ 62) in K. change (Z.of_nat 62) with 62%Z in K. pose proof (pos_INR (nsteps p)).
      rewrite mult_INR. unfold passes. destruct (is_1d p); simpl (INR 1); simpl (INR 2); lra. }
  pose proof (sqrt_pos (padded_energy p (values m))).
  assert (step_gain u32 p ^ nsteps p * sqrt (padded_energy p (values m)) <= 101 / 100 * bp 110).
  { eapply Rle_trans; [apply Rmult_le_compat_r; [auto|exact P]|]. lra. }
  lra.
Qed.

Lemma patterns_storable (b0 : buffer f32) : Forall (fun n => (1 <= n)%Z) (shape p) ->
  (Z.of_nat (level_rows p 0) < 2 ^ 31)%Z -> (Z.of_nat (level_cols p 0) < 2 ^ 31)%Z ->
  (Z.of_nat (level_rows p 0) * Z.of_nat (level_cols p 0) < 2 ^ 32)%Z ->
  bpar b0 = p -> Z.of_nat (length (bdec b0)) = signum p -> (forall ch, In ch (bdec b0) -> has_layout p ch) ->
  storable (patterns b0) /\ indexable (patterns b0) /\ no_empty_subband (patterns b0) /\ int_sides (patterns b0).
Proof.
  intros Hpos H1 H2 H3 E HL HLay.
  assert (LAY : forall ch, In ch (bdec (patterns b0)) -> has_layout p ch).
  { intros ch Hin. unfold patterns, map_buffer in Hin. cbn [bdec] in Hin. apply in_map_iff in Hin as (c & <- & Hin).
    apply map_layout. auto. }
  assert (SZ : forall ch m, In ch (bdec (patterns b0)) -> In m ch ->
    mwf m /\ (rows m <= level_rows p 0 /\ cols m <= level_cols p 0)%nat).
  { intros ch m Hc Hm. destruct (layout_all p ch m (LAY ch Hc) Hm) as (s & Hs & W & -> & ->). split; [exact W|].
    destruct (level_le0 p s). auto. }
  assert (PR : forall a b c d, (0 <= a <= c -> 0 <= b <= d -> c * d < 2 ^ 32 -> a * b < 2 ^ 32)%Z) by (intros; nia).
  split; [|split; [|split]].
  - unfold storable, patterns. cbn [bpar bdec map_buffer]. rewrite E. split; auto. rewrite map_length. split; auto.
    intros ch Hc. split; [apply (LAY ch Hc)|]. apply Forall_forall. intros m Hm.
    destruct (SZ ch m Hc Hm) as (W & Hr & Hcl). unfold fits64. split; auto.
    pose proof (PR (Z.of_nat (rows m)) (Z.of_nat (cols m)) (Z.of_nat (level_rows p 0)) (Z.of_nat (level_cols p 0)) ltac:(lia) ltac:(lia) H3).
    lia.
  - intros ch m Hc Hm. destruct (SZ ch m Hc Hm) as (W & Hr & Hcl).
    apply (PR (Z.of_nat (rows m)) (Z.of_nat (cols m)) (Z.of_nat (level_rows p 0)) (Z.of_nat (level_cols p 0))); lia.
  - intros ch m Hc Hm. eapply (layout_nonempty p ch m); eauto.
  - intros ch m Hc Hm. destruct (SZ ch m Hc Hm) as (W & Hr & Hcl). lia.
Qed.

(** what is stored, and what comes back *)
Lemma stored_parts b data cd sf q d e :
  @reachable f32 binary32 p b -> Forall (fun n => (1 <= n)%Z) (shape p) ->
  (Z.of_nat (level_rows p 0) < 2 ^ 31)%Z -> (Z.of_nat (level_cols p 0) < 2 ^ 31)%Z ->
  (Z.of_nat (level_rows p 0) * Z.of_nat (level_cols p 0) < 2 ^ 32)%Z ->
  (1 <= signum p)%Z -> Z.of_nat (length data) = signum p -> Forall (shaped p) data ->
  Forall all_finite data -> Forall (fun m => padded_energy p (values m) <= 2 ^ 220) data ->
  (1 <= sf)%Z -> codec_faithful cd (33 - Z.min 31 sf) q -> codec_total cd (33 - Z.min 31 sf) ->
  0 <= d <= 1 / 2 -> 0 <= e <= 1 -> loses d e q ->
  exists b0 blob b1 f, @decompose f32 binary32 b data null_denoiser = Ok (true, b0) /\
    bdec b0 = map (@dec_of p f32 binary32 null_denoiser) data /\
    serialize cd (patterns b0) sf = Ok (Some blob) /\ Forall is_byte blob /\
    (forall legacy extra, parse cd legacy (blob ++ extra) = Ok (Some b1)) /\
    floats b1 = Buffer p (map (map (map_mat f)) (bdec b0)) /\
    (forall x : f32, is_finite x = true -> is_finite (f x) = true /\ Rabs (B2R (f x) - B2R x) <= d * Rabs (B2R x) + e) /\
    Forall (has_layout p) (map (map (map_mat f)) (bdec b0)) /\
    Forall (Forall all_finite) (map (map (map_mat f)) (bdec b0)) /\
    Forall (fun ch => channel_energy (map values ch) <= 2 ^ 222) (map (map (map_mat f)) (bdec b0)).
Proof.
  intros Hr Hpos S1 S2 S3 Hsig HL HS HF HE Hsf HC HT Hd He Hq.
  set (ch0s := map (@dec_of p f32 binary32 null_denoiser) data).
  set (b0 := Buffer p ch0s).
  assert (E0 : @decompose f32 binary32 b data null_denoiser = Ok (true, b0)) by (apply (@dec_okA f32 binary32 p HA b data); auto).
  assert (LAY : forall ch, In ch ch0s -> has_layout p ch).
  { intros ch Hin. apply in_map_iff in Hin as (m & <- & _). apply dec_of_layout; auto. apply null_keepsA. }
  destruct (patterns_storable b0 Hpos S1 S2 S3 eq_refl) as (P1 & P2 & P3 & P4); auto.
  { cbn [bdec b0]. unfold ch0s. rewrite map_length. exact HL. }
  destruct (compressed cd (fun _ _ => Throw) (patterns b0) sf q P1 Hsf P2 P3 HC) as (_ & HX).
  destruct (HX P4 HT) as (blob & EB).
  set (f := fun x => f32_of_word (clean q (pattern x))).
  set (b1 := map_buffer (clean q) (patterns b0)).
  assert (F1 : floats b1 = Buffer p (map (map (map_mat f)) ch0s)).
  { unfold floats, b1, patterns, map_buffer. cbn [bpar bdec b0]. f_equal. rewrite !map_map. apply map_ext. intros ch.
    rewrite !map_map. apply map_ext. intros m. unfold map_mat. cbn [rows cols elts]. f_equal. rewrite !map_map. reflexivity. }
  assert (Hg : forall x : f32, is_finite x = true -> is_finite (f x) = true /\ Rabs (B2R (f x) - B2R x) <= d * Rabs (B2R x) + e).
  { intros x Hx. destruct (clean_loses d e q ltac:(lra) ltac:(lra) Hq (pattern x)) as (G1 & G2).
    - unfold finite_word. rewrite pattern_back. exact Hx.
    - unfold number in G2. rewrite pattern_back in G2. split; [exact G1|exact G2]. }
  rewrite Forall_forall in HS, HF, HE.
  assert (FIN : forall m, In m data -> Forall all_finite (@dec_of p f32 binary32 null_denoiser m)) by (intros m Hm; apply (subbands_finite p HA m); auto).
  assert (CNT : forall m, In m data -> coefficient_count (@dec_of p f32 binary32 null_denoiser m) = (level_rows p 0 * level_cols p 0)%nat).
  { intros m Hm. apply count_layout. apply LAY. apply in_map. exact Hm. }
  assert (CB : sqrt (INR (level_rows p 0 * level_cols p 0)) <= bp 16).
  { apply bp_sqrt. change (2 * 16)%Z with 32%Z. change (bp 32) with (IZR (2 ^ 32)). rewrite INR_IZR_INZ. apply IZR_le. lia. }
  assert (NG : forall m, In m data -> channel_energy (map values (map (map_mat f) (@dec_of p f32 binary32 null_denoiser m))) <= 2 ^ 222).
  { intros m Hm. destruct (map_moves_channel f d e ltac:(lra) ltac:(lra) Hg _ (FIN m Hm)) as (_ & M2 & _).
    rewrite (CNT m Hm) in M2. destruct (stored_energy m) as (_ & M3); auto.
    pose proof (sqrt_pos (channel_energy (map values (@dec_of p f32 binary32 null_denoiser m)))) as N0.
    pose proof (sqrt_pos (INR (level_rows p 0 * level_cols p 0))) as N1.
    assert (B : sqrt (channel_energy (map values (map (map_mat f) (@dec_of p f32 binary32 null_denoiser m)))) <= bp 111).
    { eapply Rle_trans; [exact M2|].
      assert (bp 111 = 2 * bp 110) by (change 111%Z with (1 + 110)%Z; rewrite bpow_plus; reflexivity).
      assert (bp 20 <= bp 110) by (apply bpow_le; lia).
      assert (bp 110 = 2 ^ 94 * bp 16) by (change 110%Z with (94 + 16)%Z; rewrite bpow_plus; f_equal; rewrite <- bp_nat; reflexivity).
      assert (X1 : (1 + d) * sqrt (channel_energy (map values (@dec_of p f32 binary32 null_denoiser m))) <= 3 / 2 * (101 / 100 * bp 110 + 1)).
      { apply Rmult_le_compat; auto; lra. }
      assert (X2 : e * sqrt (INR (level_rows p 0 * level_cols p 0)) <= 1 * bp 16) by (apply Rmult_le_compat; auto; lra).
      assert (bp 20 = 16 * bp 16) by (change 20%Z with (4 + 16)%Z; rewrite bpow_plus; reflexivity).
      assert (4 <= bp 16) by (change 4 with (bp 2); apply bpow_le; lia).
      assert (bp 24 <= bp 110) by (apply bpow_le; lia).
      assert (bp 24 = 256 * bp 16) by (change 24%Z with (8 + 16)%Z; rewrite bpow_plus; reflexivity).
      lra. }
    rewrite <- (sqrt_sqrt _ (channel_energy_ge0 _)).
    change 222%nat with (111 + 111)%nat. rewrite pow_add. rewrite <- bp_nat. change (Z.of_nat 111) with 111%Z.
    apply Rmult_le_compat; auto; apply sqrt_pos. }
  exists b0, blob, b1, f. split; [exact E0|]. split; [reflexivity|]. split; [exact EB|].
  split; [apply (proj1 (compressed cd (fun _ _ => Throw) (patterns b0) sf q P1 Hsf P2 P3 HC) blob EB)|].
  split. { intros legacy extra. apply (proj1 (compressed cd legacy (patterns b0) sf q P1 Hsf P2 P3 HC) blob EB). }
  split; [exact F1|]. split; [exact Hg|].
  split; [|split]; apply Forall_forall; intros ch Hin; apply in_map_iff in Hin as (c & <- & Hin).
  - apply map_layout. auto.
  - apply in_map_iff in Hin as (m & <- & Hm). apply (map_moves_channel f d e ltac:(lra) ltac:(lra) Hg _ (FIN m Hm)).
  - apply in_map_iff in Hin as (m & <- & Hm). auto.
Qed.
Theorem stored_binary32 b data cd sf q d e :
  @reachable f32 binary32 p b -> Forall (fun n => (1 <= n)%Z) (shape p) ->
  (Z.of_nat (level_rows p 0) < 2 ^ 31)%Z -> (Z.of_nat (level_cols p 0) < 2 ^ 31)%Z ->
  (Z.of_nat (level_rows p 0) * Z.of_nat (level_cols p 0) < 2 ^ 32)%Z ->
  (1 <= signum p)%Z -> Z.of_nat (length data) = signum p -> Forall (shaped p) data ->
  Forall all_finite data -> Forall (fun m => padded_energy p (values m) <= 2 ^ 220) data ->
  (1 <= sf)%Z -> codec_faithful cd (33 - Z.min 31 sf) q -> codec_total cd (33 - Z.min 31 sf) ->
  0 <= d <= 1 / 2 -> 0 <= e <= 1 -> loses d e q ->
  exists b0 blob b1 out, @decompose f32 binary32 b data null_denoiser = Ok (true, b0) /\
    serialize cd (patterns b0) sf = Ok (Some blob) /\ Forall is_byte blob /\
    (forall legacy extra, parse cd legacy (blob ++ extra) = Ok (Some b1)) /\
    @compose f32 binary32 (floats b1) 0 = Ok (true, out) /\ length out = length data /\
    forall c m o, nth_error data c = Some m -> nth_error out c = Some o ->
      sized (drows p) (dcols p) o /\ all_finite o /\
      error p (values o) (values m) <= lossy_error p u32 eta32 d e (sqrt (padded_energy p (values m))).
Proof.
  intros Hr Hpos S1 S2 S3 Hsig HL HS HF HE Hsf HC HT Hd He Hq.
  destruct (stored_parts b data cd sf q d e Hr Hpos S1 S2 S3 Hsig HL HS HF HE Hsf HC HT Hd He Hq)
    as (b0 & blob & b1 & f & E0 & EB0 & EB & BY & PA & F1 & Hg & LAYF & FINF & NG).
  rewrite Forall_forall in HS, HF, HE.
  assert (FIN : forall m, In m data -> Forall all_finite (@dec_of p f32 binary32 null_denoiser m)) by (intros m Hm; apply (subbands_finite p HA m); auto).
  assert (CNT : forall m, In m data -> coefficient_count (@dec_of p f32 binary32 null_denoiser m) = (level_rows p 0 * level_cols p 0)%nat).
  { intros m Hm. apply count_layout. apply dec_of_layout; auto. apply null_keepsA. }
  destruct (moved_binary32 p HA b data (map (map (map_mat f)) (bdec b0))) as (b0' & out & D0 & Ec & Hlen & Hall); auto;
    try (apply Forall_forall; auto; fail).
  - rewrite EB0, !map_length. reflexivity.
  - rewrite E0 in D0. inversion D0; subst b0'; clear D0.
    exists b0, blob, b1, out. split; [exact E0|]. split; [exact EB|]. split; [exact BY|]. split; [exact PA|].
    split; [rewrite F1; exact Ec|]. split; [exact Hlen|]. intros c m o Hm Ho.
    pose proof (nth_error_In _ _ Hm) as Hin.
    destruct (Hall c m (@dec_of p f32 binary32 null_denoiser m) (map (map_mat f) (@dec_of p f32 binary32 null_denoiser m)) o) as (O1 & O2 & O3); auto.
    + rewrite EB0, nth_error_map, Hm. reflexivity.
    + rewrite EB0, !nth_error_map, Hm. reflexivity.
    + split; [exact O1|]. split; [exact O2|]. eapply Rle_trans; [exact O3|]. unfold lossy_error. apply Rplus_le_compat_l.
      assert (G0 : 0 <= step_gain u32 p ^ nsteps p) by (apply pow_le; pose proof (stepg_1 u32 u32_pos (geom_of p)) as Q; rewrite (stepg_gain u32 p HA) in Q; lra).
      apply Rmult_le_compat_l; [exact G0|].
      destruct (map_moves_channel f d e ltac:(lra) ltac:(lra) Hg _ (FIN m Hin)) as (M1 & _ & _). rewrite (CNT m Hin) in M1.
      eapply Rle_trans; [exact M1|]. apply Rplus_le_compat_r. apply Rmult_le_compat_l; [lra|].
      apply stored_energy; auto.
Qed.
Theorem stored_denoised_binary32 b data den cd sf q d e : keeps_shape den -> keeps_or_zeroes den ->
  @reachable f32 binary32 p b -> Forall (fun n => (1 <= n)%Z) (shape p) ->
  (Z.of_nat (level_rows p 0) < 2 ^ 31)%Z -> (Z.of_nat (level_cols p 0) < 2 ^ 31)%Z ->
  (Z.of_nat (level_rows p 0) * Z.of_nat (level_cols p 0) < 2 ^ 32)%Z ->
  (1 <= signum p)%Z -> Z.of_nat (length data) = signum p -> Forall (shaped p) data ->
  Forall all_finite data -> Forall (fun m => padded_energy p (values m) <= 2 ^ 220) data ->
  (1 <= sf)%Z -> codec_faithful cd (33 - Z.min 31 sf) q -> codec_total cd (33 - Z.min 31 sf) ->
  0 <= d <= 1 / 2 -> 0 <= e <= 1 -> loses d e q ->
  exists b00 b0 blob b1 out, @decompose f32 binary32 b data null_denoiser = Ok (true, b00) /\
    @decompose f32 binary32 b data den = Ok (true, b0) /\
    serialize cd (patterns b0) sf = Ok (Some blob) /\ Forall is_byte blob /\
    (forall legacy extra, parse cd legacy (blob ++ extra) = Ok (Some b1)) /\
    @compose f32 binary32 (floats b1) 0 = Ok (true, out) /\ length out = length data /\
    forall c m ch00 ch0 o, nth_error data c = Some m -> nth_error (bdec b00) c = Some ch00 -> nth_error (bdec b0) c = Some ch0 ->
      nth_error out c = Some o ->
      sized (drows p) (dcols p) o /\ all_finite o /\
      error p (values o) (values m) <= lossy_error p u32 eta32 d e (sqrt (padded_energy p (values m)))
        + step_gain u32 p ^ nsteps p * sqrt (distance2 (map values ch00) (map values ch0)).
Proof.
  intros HK Hkz Hr Hpos S1 S2 S3 Hsig HL HS HF HE Hsf HC HT Hd He Hq.
  set (ch0s := map (@dec_of p f32 binary32 den) data).
  set (b0 := Buffer p ch0s).
  assert (E0 : @decompose f32 binary32 b data den = Ok (true, b0)) by (apply (safe_ok p); auto).
  assert (LAY : forall ch, In ch ch0s -> has_layout p ch).
  { intros ch Hin. apply in_map_iff in Hin as (m & <- & _). apply dec_of_layout; auto. }
  destruct (patterns_storable b0 Hpos S1 S2 S3 eq_refl) as (P1 & P2 & P3 & P4); auto.
  { cbn [bdec b0]. unfold ch0s. rewrite map_length. exact HL. }
  destruct (compressed cd (fun _ _ => Throw) (patterns b0) sf q P1 Hsf P2 P3 HC) as (_ & HX).
  destruct (HX P4 HT) as (blob & EB).
  set (f := fun x => f32_of_word (clean q (pattern x))).
  set (b1 := map_buffer (clean q) (patterns b0)).
  assert (F1 : floats b1 = Buffer p (map (map (map_mat f)) ch0s)).
  { unfold floats, b1, patterns, map_buffer. cbn [bpar bdec b0]. f_equal. rewrite !map_map. apply map_ext. intros ch.
    rewrite !map_map. apply map_ext. intros m. unfold map_mat. cbn [rows cols elts]. f_equal. rewrite !map_map. reflexivity. }
  assert (Hg : forall x : f32, is_finite x = true -> is_finite (f x) = true /\ Rabs (B2R (f x) - B2R x) <= d * Rabs (B2R x) + e).
  { intros x Hx. destruct (clean_loses d e q ltac:(lra) ltac:(lra) Hq (pattern x)) as (G1 & G2).
    - unfold finite_word. rewrite pattern_back. exact Hx.
    - unfold number in G2. rewrite pattern_back in G2. split; [exact G1|exact G2]. }
  rewrite Forall_forall in HS, HF, HE.
  assert (KE : forall m, In m data -> Forall2 (fun d d' => kept (elts d) (elts d')) (@dec_of p f32 binary32 null_denoiser m) (@dec_of p f32 binary32 den m))
    by (intros m Hm; apply (denoised_kept p HA den m); auto).
  assert (FIN : forall m, In m data -> Forall all_finite (@dec_of p f32 binary32 den m)).
  { intros m Hm. pose proof (subbands_finite p HA m (HS m Hm) (HF m Hm) (HE m Hm)) as FIN.
    pose proof (KE m Hm) as F2. induction F2 as [|x y l l' H _ IH]; constructor; inversion FIN; subst; auto. eapply kept_finite; eauto. }
  assert (SE : forall m, In m data -> sqrt (channel_energy (map values (@dec_of p f32 binary32 den m)))
      <= step_gain u32 p ^ nsteps p * sqrt (padded_energy p (values m)) + underflow u32 eta32 p / 2 /\
    sqrt (channel_energy (map values (@dec_of p f32 binary32 den m))) <= 101 / 100 * bp 110 + 1).
  { intros m Hm. destruct (stored_energy m) as (Q1 & Q2); auto. pose proof (sqrt_le_1_alt _ _ (kept_energies _ _ (KE m Hm))). split; lra. }
  assert (CNT : forall m, In m data -> coefficient_count (@dec_of p f32 binary32 den m) = (level_rows p 0 * level_cols p 0)%nat).
  { intros m Hm. apply count_layout. apply LAY. apply in_map. exact Hm. }
  assert (CB : sqrt (INR (level_rows p 0 * level_cols p 0)) <= bp 16).
  { apply bp_sqrt. change (2 * 16)%Z with 32%Z. change (bp 32) with (IZR (2 ^ 32)). rewrite INR_IZR_INZ. apply IZR_le. lia. }
  assert (NG : forall m, In m data -> channel_energy (map values (map (map_mat f) (@dec_of p f32 binary32 den m))) <= 2 ^ 222).
  { intros m Hm. destruct (map_moves_channel f d e ltac:(lra) ltac:(lra) Hg _ (FIN m Hm)) as (_ & M2 & _).
    rewrite (CNT m Hm) in M2. destruct (SE m Hm) as (_ & M3).
    pose proof (sqrt_pos (channel_energy (map values (@dec_of p f32 binary32 den m)))) as N0.
    pose proof (sqrt_pos (INR (level_rows p 0 * level_cols p 0))) as N1.
    assert (B : sqrt (channel_energy (map values (map (map_mat f) (@dec_of p f32 binary32 den m)))) <= bp 111).
    { eapply Rle_trans; [exact M2|].
      assert (bp 111 = 2 * bp 110) by (change 111%Z with (1 + 110)%Z; rewrite bpow_plus; reflexivity).
      assert (bp 20 <= bp 110) by (apply bpow_le; lia).
      assert (bp 110 = 2 ^ 94 * bp 16) by (change 110%Z with (94 + 16)%Z; rewrite bpow_plus; f_equal; rewrite <- bp_nat; reflexivity).
      assert (X1 : (1 + d) * sqrt (channel_energy (map values (@dec_of p f32 binary32 den m))) <= 3 / 2 * (101 / 100 * bp 110 + 1)).
      { apply Rmult_le_compat; auto; lra. }
      assert (X2 : e * sqrt (INR (level_rows p 0 * level_cols p 0)) <= 1 * bp 16) by (apply Rmult_le_compat; auto; lra).
      assert (bp 20 = 16 * bp 16) by (change 20%Z with (4 + 16)%Z; rewrite bpow_plus; reflexivity).
      assert (4 <= bp 16) by (change 4 with (bp 2); apply bpow_le; lia).
      assert (bp 24 <= bp 110) by (apply bpow_le; lia).
      assert (bp 24 = 256 * bp 16) by (change 24%Z with (8 + 16)%Z; rewrite bpow_plus; reflexivity).
      lra. }
    rewrite <- (sqrt_sqrt _ (channel_energy_ge0 _)).
    change 222%nat with (111 + 111)%nat. rewrite pow_add. rewrite <- bp_nat. change (Z.of_nat 111) with 111%Z.
    apply Rmult_le_compat; auto; apply sqrt_pos. }
  destruct (moved_binary32 p HA b data (map (map (map_mat f)) ch0s)) as (b0' & out & D0 & Ec & Hlen & Hall); auto;
    try (apply Forall_forall; auto; fail).
  - unfold ch0s. rewrite !map_length. reflexivity.
  - apply Forall_forall. intros ch Hin. apply in_map_iff in Hin as (c & <- & Hin). apply map_layout. auto.
  - apply Forall_forall. intros ch Hin. apply in_map_iff in Hin as (c & <- & Hin). apply in_map_iff in Hin as (m & <- & Hm).
    apply (map_moves_channel f d e ltac:(lra) ltac:(lra) Hg _ (FIN m Hm)).
  - apply Forall_forall. intros ch Hin. apply in_map_iff in Hin as (c & <- & Hin). apply in_map_iff in Hin as (m & <- & Hm). auto.
  - exists b0', b0, blob, b1, out. split; [exact D0|]. split; [exact E0|]. split; [exact EB|].
    split; [apply (proj1 (compressed cd (fun _ _ => Throw) (patterns b0) sf q P1 Hsf P2 P3 HC) blob EB)|].
    split. { intros legacy extra. apply (proj1 (compressed cd legacy (patterns b0) sf q P1 Hsf P2 P3 HC) blob EB). }
    split; [rewrite F1; exact Ec|]. split; [exact Hlen|]. intros c m ch00 ch0 o Hm H00 H0 Ho.
    pose proof (nth_error_In _ _ Hm) as Hin.
    cbn [bdec b0] in H0. unfold ch0s in H0. rewrite nth_error_map, Hm in H0. inversion H0; subst ch0; clear H0.
    destruct (Hall c m ch00 (map (map_mat f) (@dec_of p f32 binary32 den m)) o) as (O1 & O2 & O3); auto.
    { unfold ch0s. rewrite !nth_error_map, Hm. reflexivity. }
    split; [exact O1|]. split; [exact O2|]. eapply Rle_trans; [exact O3|]. unfold lossy_error. rewrite (Rplus_assoc (float_rel u32 p * sqrt (padded_energy p (values m)) + underflow u32 eta32 p)). apply Rplus_le_compat_l.
    rewrite <- Rmult_plus_distr_l.
    assert (G0 : 0 <= step_gain u32 p ^ nsteps p) by (apply pow_le; pose proof (stepg_1 u32 u32_pos (geom_of p)) as Q; rewrite (stepg_gain u32 p HA) in Q; lra).
    apply Rmult_le_compat_l; [exact G0|].
    destruct (map_moves_channel f d e ltac:(lra) ltac:(lra) Hg _ (FIN m Hin)) as (M1 & _ & _). rewrite (CNT m Hin) in M1.
    assert (E00 : ch00 = @dec_of p f32 binary32 null_denoiser m).
    { rewrite (@dec_okA f32 binary32 p HA b data) in D0; auto; [|apply Forall_forall; auto]. inversion D0; subst b0'. cbn [bdec] in H00.
      rewrite nth_error_map, Hm in H00. inversion H00. reflexivity. }
    subst ch00.
    eapply Rle_trans; [apply (distance_triangle _ (map values (@dec_of p f32 binary32 den m)))|].
    + apply (Forall2_length_nested _ _ (KE m Hin)).
    + rewrite !map_map. clear. induction (@dec_of p f32 binary32 den m) as [|x l IH]; constructor; auto. unfold map_mat, values; cbn [elts]. rewrite !map_length. reflexivity.
    + rewrite Rplus_comm. apply Rplus_le_compat_r.
      eapply Rle_trans; [exact M1|]. apply Rplus_le_compat_r. apply Rmult_le_compat_l; [lra|].
      apply SE; auto.
Qed.
(** the bound in numbers *)
Lemma lossy_small d e n : 0 <= d <= 1 / 2 -> 0 <= e -> 0 <= n ->
  lossy_error p u32 eta32 d e n <=
    (INR (passes p * nsteps p) * (75 / 10 ^ 7) + 103 / 100 * d) * n
    + 101 / 100 * e * sqrt (INR (level_rows p 0 * level_cols p 0)) + INR (nsteps p) / 2 ^ 73.
Proof.
  intros Hd He Hn. destruct (float_bounds p HA) as [F U]. unfold lossy_error.
  pose proof (K62 p HA) as K. rewrite (K_nsteps p HA) in K.
  assert (P : step_gain u32 p ^ nsteps p <= 101 / 100).
  { destruct (Z.eq_dec (wtype p) 0) as [E0|Ht].
    - apply (acc_none p HA) in E0. unfold nsteps. rewrite E0. simpl. lra.
    - destruct (P_Bin3.gain_pow p HA (nsteps p) Ht) as [_ G]. destruct (G ltac:(lia)) as [G1 _].
      eapply Rle_trans; [exact G1|]. apply le_INR in K. rewrite (INR_IZR_INZ 62) in K. change (Z.of_nat 62) with 62%Z in K. pose proof (pos_INR (nsteps p)).
      rewrite mult_INR. unfold passes. destruct (is_1d p); simpl (INR 1); simpl (INR 2); lra. }
  assert (G0 : 0 <= step_gain u32 p ^ nsteps p) by (apply pow_le; pose proof (stepg_1 u32 u32_pos (geom_of p)) as Q; rewrite (stepg_gain u32 p HA) in Q; lra).
  set (G := step_gain u32 p ^ nsteps p) in *. set (u := underflow u32 eta32 p) in *. set (fr := float_rel u32 p) in *.
  set (k := INR (passes p * nsteps p)) in *. set (a := sqrt (INR (level_rows p 0 * level_cols p 0))).
  assert (A0 : 0 <= a) by apply sqrt_pos.
  assert (T : 2 * (INR (nsteps p) / 2 ^ 74) = INR (nsteps p) / 2 ^ 73).
  { change (2 ^ 74) with (2 * 2 ^ 73). field. }
  set (v := INR (nsteps p) / 2 ^ 74) in *.
  assert (V0 : 0 <= v).
  { apply Rmult_le_pos; [apply pos_INR|]. left. apply Rinv_0_lt_compat. apply pow_lt. lra. }
  clearbody G u fr k a v. rewrite <- T. clear T K.
  assert (B1 : fr * n <= k * (75 / 10 ^ 7) * n) by (apply Rmult_le_compat_r; auto).
  assert (B2 : G * n <= 101 / 100 * n) by (apply Rmult_le_compat_r; auto).
  assert (B3 : G * (d * (G * n + u / 2) + e * a) <= G * (d * (101 / 100 * n + v / 2) + e * a)).
  { apply Rmult_le_compat_l; auto. apply Rplus_le_compat_r. apply Rmult_le_compat_l; lra. }
  assert (0 <= d * (101 / 100 * n + v / 2)) by (apply Rmult_le_pos; lra).
  assert (0 <= e * a) by (apply Rmult_le_pos; auto).
  assert (B4 : G * (d * (101 / 100 * n + v / 2) + e * a) <= 101 / 100 * (d * (101 / 100 * n + v / 2) + e * a)) by (apply Rmult_le_compat_r; lra).
  assert (0 <= d * n) by (apply Rmult_le_pos; lra).
  assert (d * v <= 1 / 2 * v) by (apply Rmult_le_compat_r; lra).
  lra.
Qed.
End P.

(** uncompressed, floats come back as they were *)
Theorem floats_back cd legacy (b : buffer f32) : storable (patterns b) ->
  exists blob b1, serialize cd (patterns b) 0 = Ok (Some blob) /\
    (forall extra, parse cd legacy (blob ++ extra) = Ok (Some b1)) /\ floats b1 = b.
Proof.
  intros H. destruct (uncompressed cd legacy (patterns b) H) as (blob & E & P). exists blob, (patterns b).
  split; auto. split; auto. unfold floats, patterns, map_buffer. cbn [bpar bdec]. destruct b as [p dec]; cbn [bpar bdec]. f_equal.
  rewrite map_map. rewrite <- (map_id dec) at 2. apply map_ext. intros ch. rewrite map_map. rewrite <- (map_id ch) at 2. apply map_ext.
  intros [r c l]. unfold map_mat. cbn [rows cols elts]. f_equal. rewrite map_map. rewrite <- (map_id l) at 2. apply map_ext. apply pattern_back.
Qed.
