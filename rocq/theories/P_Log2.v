(** * P_Log2: the double computation of the number of steps is exact for sides below 2^45 *)
Require Import List ZArith Bool Lia ZifyBool Reals Lra.
Require Import Flocq.Core.Core Flocq.IEEE754.BinarySingleNaN Flocq.Prop.Relative.
Import ListNotations.
From Verif Require Import M_Base P_Base M_Params S_Params P_Params M_Buffer M_Float P_Float M_SfCodec P_SfFloat P_SfValue M_Log2 S_Log2.
Open Scope Z_scope.

(** ** Logarithms *)
Lemma ln2_pos : (/ 2 < ln 2 < 1)%R.
Proof.
  split; [apply ln_lt_2|]. rewrite <- (ln_exp 1). apply ln_increasing; [lra|].
  pose proof (exp_ineq1 1 ltac:(lra)). lra.
Qed.
Lemma log2_pow k : real_log2 (bpow radix2 k) = IZR k.
Proof.
  unfold real_log2. rewrite bpow_exp. rewrite ln_exp. change (IZR radix2) with 2%R.
  field. pose proof ln2_pos. lra.
Qed.
Lemma log2_mult x y : (0 < x)%R -> (0 < y)%R -> real_log2 (x * y) = (real_log2 x + real_log2 y)%R.
Proof. intros Hx Hy. unfold real_log2. rewrite ln_mult by auto. field. pose proof ln2_pos. lra. Qed.
Lemma log2_le x y : (0 < x)%R -> (x <= y)%R -> (real_log2 x <= real_log2 y)%R.
Proof.
  intros Hx H. unfold real_log2. pose proof ln2_pos. apply Rmult_le_compat_r; [apply Rlt_le, Rinv_0_lt_compat; lra|].
  destruct H as [H|<-]; [apply Rlt_le, ln_increasing; auto|lra].
Qed.
(** log2 (1 - v) is between -2v/(1-v) and -v *)
Lemma ln_upper x : (0 < x)%R -> (ln x <= x - 1)%R.
Proof.
  intros Hx. destruct (Req_dec x 1) as [->|N]; [rewrite ln_1; lra|].
  pose proof (exp_ineq1 (ln x)) as E. rewrite exp_ln in E by auto.
  assert (ln x <> 0)%R by (apply ln_neq_0; auto). specialize (E H). lra.
Qed.
Lemma ln_lower x : (0 < x)%R -> (1 - / x <= ln x)%R.
Proof.
  intros Hx. pose proof (ln_upper (/ x) ltac:(apply Rinv_0_lt_compat; auto)) as U. rewrite ln_Rinv in U by auto. lra.
Qed.
Lemma log2_below v : (0 <= v < 1)%R -> (real_log2 (1 - v) <= - v)%R.
Proof.
  intros Hv. unfold real_log2. pose proof ln2_pos as P. pose proof (ln_upper (1 - v) ltac:(lra)) as U.
  assert (I : (1 < / ln 2)%R) by (rewrite <- Rinv_1; apply Rinv_lt_contravar; lra).
  unfold Rdiv. replace (1 - v - 1)%R with (- v)%R in U by ring. set (L := ln (1 - v)) in *. set (i := (/ ln 2)%R) in *. clearbody L i.
  assert (L * i <= - v * i)%R by (apply Rmult_le_compat_r; lra). assert (v * 1 <= v * i)%R by (apply Rmult_le_compat_l; lra). lra.
Qed.
Lemma log2_above u : (0 <= u <= 1)%R -> (u / (1 + u) <= real_log2 (1 + u))%R.
Proof.
  intros Hu. unfold real_log2. pose proof ln2_pos as P. pose proof (ln_lower (1 + u) ltac:(lra)) as L.
  assert (I : (1 < / ln 2)%R) by (rewrite <- Rinv_1; apply Rinv_lt_contravar; lra).
  assert (E : (1 - / (1 + u) = u / (1 + u))%R) by (field; lra).
  assert (0 <= u / (1 + u))%R by (apply Rmult_le_pos; [lra|apply Rlt_le, Rinv_0_lt_compat; lra]).
  rewrite E in L. unfold Rdiv at 2. set (l := ln (1 + u)) in *. set (i := (/ ln 2)%R) in *. set (w := (u / (1 + u))%R) in *. clearbody l i w.
  assert (w * 1 <= l * i)%R by (apply Rmult_le_compat; lra). lra.
Qed.

(** ** The quotient *)
Lemma quotient_val t n : 1 <= t < 2 ^ 30 -> 1 <= n < 2 ^ 53 ->
  let q := f64_div (f64_of_int n) (f64_sub (f64_mul (f64_of_int 2) (f64_of_int t)) (f64_of_int 1)) in
  is_finite q = true /\ B2R q = r64 (IZR n / IZR (2 * t - 1)).
Proof.
  intros Ht Hn q.
  assert (E2 : ex (f64_mul (f64_of_int 2) (f64_of_int t)) (2 * t) (0 + 0)).
  { apply ex_mul; try apply ex_int; lia. }
  destruct E2 as (E2 & F2). cbn [Z.add bpow] in E2. rewrite Rmult_1_r in E2.
  destruct (of_int64 1 ltac:(cbn; lia)) as (E3 & F3). destruct (of_int64 n ltac:(lia)) as (E1 & F1).
  destruct (sub_int _ _ _ _ E2 F2 E3 F3 ltac:(lia)) as (E4 & F4).
  set (d := f64_sub _ _) in *.
  assert (P : (1 <= IZR (2 * t - 1))%R) by (apply IZR_le; lia).
  pose proof (Bdiv_correct 53 1024 _ _ mode_NE (f64_of_int n) d ltac:(rewrite E4; lra)) as D.
  rewrite E1, E4 in D. unfold q, f64_div.
  assert (B : (0 <= IZR n / IZR (2 * t - 1) <= IZR n)%R).
  { assert (0 <= IZR n)%R by (apply IZR_le; lia). split.
    - apply Rmult_le_pos; [auto|]. apply Rlt_le, Rinv_0_lt_compat. lra.
    - unfold Rdiv. rewrite <- (Rmult_1_r (IZR n)) at 2. apply Rmult_le_compat_l; [auto|].
      rewrite <- Rinv_1. apply Rinv_le_contravar; lra. }
  rewrite Rlt_bool_true in D.
  - destruct D as (D1 & D2 & _). split; [congruence|exact D1].
  - assert (R : (0 <= r64 (IZR n / IZR (2 * t - 1)) <= IZR n)%R).
    { split; [rewrite <- r64_0; apply r64_le; lra|]. rewrite <- (r64_int n) at 2 by lia. apply r64_le. lra. }
    fold r64 in *. rewrite Rabs_pos_eq by apply R. eapply Rle_lt_trans; [apply R|].
    pose proof (int_small n ltac:(lia)) as S. rewrite Rabs_pos_eq in S by lra. exact S.
Qed.

Definition beta : R := bpow radix2 (-53).
Lemma beta_val : beta = (/ IZR (2 ^ 53))%R.
Proof. unfold beta. change (-53) with (- (53)). rewrite bpow_opp, <- IZR_Zpower by lia. reflexivity. Qed.
Lemma beta_small : (0 < beta < / 1000000)%R.
Proof.
  rewrite beta_val. split; [apply Rinv_0_lt_compat, IZR_lt; lia|]. apply Rinv_lt_contravar.
  - apply Rmult_lt_0_compat; [lra|apply IZR_lt; lia].
  - apply IZR_lt. lia.
Qed.

Lemma floor_log2 lg n d k x : good_log2 lg -> 1 <= d <= n -> n < 2 ^ 45 -> 0 <= k -> 2 ^ k * d <= n < 2 ^ (k + 1) * d ->
  is_finite x = true -> B2R x = r64 (IZR n / IZR d) ->
  is_finite (lg x) = true /\ Zfloor (B2R (lg x)) = k.
Proof.
  intros (G1 & G2) Hd Hn Hk (H1 & H2) Fx Ex. pose proof beta_small as Hb.
  assert (Pk : 1 <= 2 ^ k) by (pose proof (Z.pow_pos_nonneg 2 k); lia).
  assert (Hk44 : k <= 44).
  { destruct (Z_le_gt_dec k 44); auto. assert (2 ^ 45 <= 2 ^ k) by (apply Z.pow_le_mono_r; lia). nia. }
  assert (PD : (1 <= IZR d)%R) by (apply IZR_le; lia).
  assert (P2k : (0 < bpow radix2 k)%R) by apply bpow_gt_0.
  assert (E2k : bpow radix2 k = IZR (2 ^ k)) by (rewrite <- IZR_Zpower by lia; reflexivity).
  assert (B1 : (1 <= bpow radix2 k)%R) by (rewrite E2k; apply IZR_le; lia).
  assert (Hq : (IZR n / IZR d * IZR d = IZR n)%R) by (field; lra).
  destruct (Z.eq_dec n (2 ^ k * d)) as [En|Nn].
  - assert (Q : (IZR n / IZR d)%R = bpow radix2 k).
    { rewrite En, mult_IZR, E2k. field. lra. }
    rewrite Q in Ex. assert (X : B2R x = bpow radix2 k).
    { rewrite Ex. pose proof (r64_exact 1 k ltac:(lia) ltac:(lia)) as X. rewrite Rmult_1_l in X. exact X. }
    destruct (G1 x k Fx Hk X) as (F & V). split; [exact F|]. rewrite V. apply Zfloor_IZR.
  - set (q := (IZR n / IZR d)%R) in *.
    assert (Q1 : (bpow radix2 k * (1 + 256 * beta) <= q)%R).
    { apply Rmult_le_reg_r with (IZR d); [lra|]. rewrite Hq, E2k, beta_val.
      assert (I : (IZR (2 ^ k * d) + 1 <= IZR n)%R) by (rewrite <- plus_IZR; apply IZR_le; lia). rewrite mult_IZR in I.
      assert (J : (IZR (2 ^ k * d) <= IZR (2 ^ 45))%R) by (apply IZR_le; lia). rewrite mult_IZR in J.
      change (2 ^ 53) with (256 * 2 ^ 45). rewrite (mult_IZR 256).
      assert (C : (0 < IZR (2 ^ 45))%R) by (apply IZR_lt; lia). set (c := IZR (2 ^ 45)) in *. clearbody c.
      replace (IZR (2 ^ k) * (1 + 256 * / (256 * c)) * IZR d)%R with (IZR (2 ^ k) * IZR d + IZR (2 ^ k) * IZR d / c)%R by (field; lra).
      assert (IZR (2 ^ k) * IZR d / c <= 1)%R; [|lra]. apply Rmult_le_reg_r with c; [auto|]. unfold Rdiv.
      rewrite Rmult_assoc, Rinv_l by lra. lra. }
    assert (Q2 : (q <= bpow radix2 (k + 1) * (1 - 128 * beta))%R).
    { apply Rmult_le_reg_r with (IZR d); [lra|]. rewrite Hq, beta_val.
      assert (E2k1 : bpow radix2 (k + 1) = IZR (2 ^ (k + 1))) by (rewrite <- IZR_Zpower by lia; reflexivity). rewrite E2k1.
      assert (I : (IZR n + 1 <= IZR (2 ^ (k + 1) * d))%R) by (rewrite <- plus_IZR; apply IZR_le; lia). rewrite mult_IZR in I.
      assert (J : (IZR (2 ^ (k + 1) * d) <= IZR (2 ^ 46))%R).
      { apply IZR_le. rewrite Z.pow_add_r by lia. change (2 ^ 1) with 2. lia. }
      rewrite mult_IZR in J. change (2 ^ 53) with (128 * 2 ^ 46). rewrite (mult_IZR 128).
      assert (C : (0 < IZR (2 ^ 46))%R) by (apply IZR_lt; lia). set (c := IZR (2 ^ 46)) in *. clearbody c.
      replace (IZR (2 ^ (k + 1)) * (1 - 128 * / (128 * c)) * IZR d)%R
        with (IZR (2 ^ (k + 1)) * IZR d - IZR (2 ^ (k + 1)) * IZR d / c)%R by (field; lra).
      assert (IZR (2 ^ (k + 1)) * IZR d / c <= 1)%R; [|lra]. apply Rmult_le_reg_r with c; [auto|]. unfold Rdiv.
      rewrite Rmult_assoc, Rinv_l by lra. lra. }
    assert (Hb1 : (bpow radix2 (-1000) <= q)%R).
    { apply Rle_trans with 1%R; [change 1%R with (bpow radix2 0); apply bpow_le; lia|]. nra. }
    pose proof (r64_rel q (or_intror Hb1)) as R. rewrite <- Ex in R. fold beta in R.
    assert (P1 : (0 < bpow radix2 (k + 1))%R) by apply bpow_gt_0.
    assert (X1 : (bpow radix2 k * (1 + 254 * beta) <= B2R x)%R).
    { apply Rle_trans with (bpow radix2 k * (1 + 256 * beta) * (1 - beta))%R.
      - rewrite Rmult_assoc. apply Rmult_le_compat_l; [lra|]. nra.
      - eapply Rle_trans; [|apply R]. apply Rmult_le_compat_r; lra. }
    assert (X2 : (B2R x <= bpow radix2 (k + 1) * (1 - 127 * beta))%R).
    { eapply Rle_trans; [apply R|]. apply Rle_trans with (bpow radix2 (k + 1) * (1 - 128 * beta) * (1 + beta))%R.
      - apply Rmult_le_compat_r; lra.
      - rewrite Rmult_assoc. apply Rmult_le_compat_l; [lra|]. nra. }
    assert (Hx1 : (1 < B2R x)%R) by nra.
    destruct (G2 x Fx Hx1) as (F & V). split; [exact F|].
    assert (L1 : (IZR k + 253 * beta <= real_log2 (B2R x))%R).
    { eapply Rle_trans; [|apply log2_le; [|exact X1]; nra].
      rewrite log2_mult by lra. rewrite log2_pow. apply Rplus_le_compat_l.
      eapply Rle_trans; [|apply log2_above; lra].
      apply Rmult_le_reg_r with (1 + 254 * beta)%R; [lra|].
      replace (254 * beta / (1 + 254 * beta) * (1 + 254 * beta))%R with (254 * beta)%R by (field; lra). nra. }
    assert (L2 : (real_log2 (B2R x) <= IZR (k + 1) - 127 * beta)%R).
    { eapply Rle_trans; [apply log2_le; [|exact X2]; lra|].
      rewrite log2_mult by lra. rewrite log2_pow. pose proof (log2_below (127 * beta) ltac:(lra)). lra. }
    replace (bpow radix2 (-52)) with (2 * beta)%R in V.
    2:{ unfold beta. change 2%R with (bpow radix2 1). rewrite <- bpow_plus. reflexivity. }
    apply Rabs_le_inv in V. rewrite plus_IZR in L2.
    assert (K : (0 <= IZR k <= 44)%R) by (split; apply IZR_le; lia).
    apply Zfloor_imp. rewrite plus_IZR.
    set (l := real_log2 (B2R x)) in *. set (y := B2R (lg x)) in *. clearbody l y.
    assert (l <= 45)%R by lra. split; nra.
Qed.

Lemma steps_exact lg t n : good_log2 lg -> 1 <= t < 2 ^ 30 -> 2 * t - 1 <= n < 2 ^ 45 ->
  steps_of lg t n = Ok (Z.log2 (n / (2 * t - 1))).
Proof.
  intros G Ht Hn. unfold steps_of.
  destruct (quotient_val t n Ht ltac:(lia)) as (F & E). set (x := f64_div _ _) in *. clearbody x.
  assert (Hp : 0 < n / (2 * t - 1)) by (apply Z.div_str_pos; lia).
  pose proof (Z.log2_spec _ Hp) as (L1 & L2). pose proof (Z.log2_nonneg (n / (2 * t - 1))) as L0.
  set (k := Z.log2 (n / (2 * t - 1))) in *. unfold Z.succ in L2.
  destruct (floor_log2 lg n (2 * t - 1) k x) as (F' & V); auto; try lia.
  - pose proof (Z.div_mod n (2 * t - 1) ltac:(lia)). pose proof (Z.mod_pos_bound n (2 * t - 1) ltac:(lia)).
    set (qq := n / (2 * t - 1)) in *. clearbody qq k. nia.
  - rewrite F', V. rewrite guard_true by auto. cbn [bind].
    assert (k < 45).
    { destruct (Z_lt_ge_dec k 45); auto. assert (2 ^ 45 <= 2 ^ k) by (apply Z.pow_le_mono_r; lia).
      pose proof (Z.div_le_upper_bound n (2 * t - 1) n ltac:(lia) ltac:(nia)). lia. }
    rewrite guard_true by lia. reflexivity.
Qed.

Theorem constructor_floats {T} lg p : good_log2 lg -> 0 <= wtype p < 2 ^ 30 -> Forall (fun n => 0 <= n < 2 ^ 45) (shape p) ->
  @new_buffer_lib lg T p = new_buffer p.
Proof.
  intros G Ht Hs. unfold new_buffer_lib, new_buffer.
  destruct (negb _) eqn:Ed; [reflexivity|].
  rewrite min_signal_ok by lia. cbn [bind].
  assert (Hdim : shape p <> []) by (unfold dimension in Ed; destruct (shape p); [discriminate|congruence]).
  destruct (min_elem_spec _ Hdim) as (m & Em & Hin & Hall). rewrite Em. cbn [bind].
  rewrite Forall_forall in Hs. specialize (Hs m Hin).
  unfold wrap64. rewrite Z.mod_small by lia. destruct (Z.ltb_spec m (wtype p * 2)); [reflexivity|].
  unfold max_steps_lib, max_steps. destruct (Z.eqb_spec (wtype p) 0); [reflexivity|]. rewrite Em. cbn [bind].
  rewrite steps_exact by (auto; lia). rewrite guard_true by lia. reflexivity.
Qed.

Theorem padded_floats lg t sh k : good_log2 lg -> 1 <= t < 2 ^ 30 ->
  Forall (fun n => 2 * t - 1 <= n < 2 ^ 45) sh -> calc_padded_lib lg t sh k = calc_padded t sh k.
Proof.
  intros G Ht Hs. unfold calc_padded_lib, calc_padded. destruct (Z.eqb_spec t 0); [lia|].
  unfold max_steps_lib, max_steps. destruct (Z.eqb_spec t 0); [lia|].
  destruct sh as [|a sh]; [reflexivity|].
  destruct (min_elem_spec (a :: sh)) as (m & Em & Hin & _); [discriminate|]. rewrite Em. cbn [bind].
  rewrite Forall_forall in Hs. specialize (Hs m Hin).
  rewrite steps_exact by (auto; lia). rewrite guard_true by lia. reflexivity.
Qed.

(** ** A correctly rounded log2 is good, and there is one *)
Lemma above_one (x : f64) : (1 < B2R x)%R -> (1 + bpow radix2 (-52) <= B2R x)%R.
Proof.
  intros H. pose proof (generic_format_B2R 53 1024 x) as G.
  assert (G1 : generic_format radix2 (SpecFloat.fexp 53 1024) 1).
  { change 1%R with (bpow radix2 0). apply generic_format_bpow. unfold SpecFloat.fexp, SpecFloat.emin. lia. }
  pose proof (FLT_exp_valid (3 - 1024 - 53) 53) as VE.
  pose proof (@succ_le_lt radix2 (SpecFloat.fexp 53 1024) (FLT_exp_valid (3 - 1024 - 53) 53) 1 (B2R x) G1 G H) as S.
  rewrite succ_eq_pos in S by lra. change 1%R with (bpow radix2 0) in S at 2. rewrite ulp_bpow in S. exact S.
Qed.
Lemma below_top (x : f64) : (B2R x < bpow radix2 1024)%R.
Proof. pose proof (abs_B2R_lt_emax 53 1024 x). eapply Rle_lt_trans; [apply Rle_abs|]. auto. Qed.

Theorem rounded_good lg : rounded_log2 lg -> good_log2 lg.
Proof.
  intros H. split.
  - intros x k Fx Hk E. destruct (H x Fx) as (F & V).
    { rewrite E. change 1%R with (bpow radix2 0). apply bpow_le. auto. }
    split; auto. rewrite V, E, log2_pow. apply r64_int.
    pose proof (below_top x) as B. rewrite E in B. apply lt_bpow in B. lia.
  - intros x Fx Hx. destruct (H x Fx ltac:(lra)) as (F & V). split; auto. rewrite V.
    pose proof (above_one x Hx) as A.
    assert (P52 : (0 < bpow radix2 (-52) <= 1)%R).
    { split; [apply bpow_gt_0|]. change 1%R with (bpow radix2 0). apply bpow_le. lia. }
    assert (L : (bpow radix2 (-1000) <= real_log2 (B2R x))%R).
    { eapply Rle_trans; [|apply log2_le; [|exact A]; lra]. eapply Rle_trans; [|apply log2_above; lra].
      apply Rle_trans with (bpow radix2 (-52) * / 2)%R.
      - change (/ 2)%R with (bpow radix2 (-1)). rewrite <- bpow_plus. apply bpow_le. lia.
      - apply Rmult_le_compat_l; [lra|]. apply Rinv_le; lra. }
    pose proof (r64_rel _ (or_intror L)) as R.
    assert (E2 : (bpow radix2 (-52) = 2 * bpow radix2 (-53))%R).
    { change 2%R with (bpow radix2 1). rewrite <- bpow_plus. reflexivity. }
    rewrite E2. pose proof (bpow_gt_0 radix2 (-1000)). pose proof (bpow_gt_0 radix2 (-53)).
    set (l := real_log2 (B2R x)) in *. set (b := bpow radix2 (-53)) in *. clearbody l b.
    apply Rabs_le. split; nra.
Qed.

Definition ideal_log2 (x : f64) : f64 :=
  let y := r64 (real_log2 (B2R x)) in
  binary_normalize 53 1024 eq_refl eq_refl mode_NE
    (Ztrunc (scaled_mantissa radix2 (SpecFloat.fexp 53 1024) y)) (cexp radix2 (SpecFloat.fexp 53 1024) y) false.

Theorem ideal_rounded : rounded_log2 ideal_log2.
Proof.
  intros x Fx Hx. unfold ideal_log2. set (y := r64 (real_log2 (B2R x))).
  assert (G : generic_format radix2 (SpecFloat.fexp 53 1024) y).
  { apply generic_format_round; [apply FLT_exp_valid; reflexivity|apply valid_rnd_round_mode]. }
  assert (B : (0 <= y <= IZR 1024)%R).
  { split.
    - rewrite <- r64_0. apply r64_le. pose proof (log2_le 1 _ ltac:(lra) Hx) as L.
      change 1%R with (bpow radix2 0) in L at 1. rewrite log2_pow in L. exact L.
    - rewrite <- (r64_int 1024) by lia. apply r64_le. rewrite <- log2_pow. apply log2_le; [lra|]. apply Rlt_le, below_top. }
  pose proof (binary_normalize_correct 53 1024 eq_refl eq_refl mode_NE
    (Ztrunc (scaled_mantissa radix2 (SpecFloat.fexp 53 1024) y)) (cexp radix2 (SpecFloat.fexp 53 1024) y) false) as C.
  assert (R : r64 y = y) by (apply round_generic; [apply valid_rnd_round_mode|exact G]).
  unfold generic_format in G. rewrite <- G in C. 
  cbv zeta in C. match type of C with context [Rabs ?z] => assert (R' : z = y) by exact R; rewrite R' in C end. rewrite Rlt_bool_true in C.
  - destruct C as (C1 & C2 & _). split; [exact C2|exact C1].
  - rewrite Rabs_pos_eq by lra. apply Rle_lt_trans with (bpow radix2 10).
    + rewrite <- IZR_Zpower by lia. apply B.
    + apply bpow_lt. lia.
Qed.

(** ** Sides above 2^50 *)
Lemma log2_near v : (0 <= v <= / 4)%R -> (- (3 * v) <= real_log2 (1 - v))%R.
Proof.
  intros Hv. unfold real_log2. pose proof ln2_pos as P. pose proof (ln_lower (1 - v) ltac:(lra)) as L.
  assert (E : (1 - / (1 - v) = - (v / (1 - v)))%R) by (field; lra). rewrite E in L.
  assert (V : (v / (1 - v) <= 4 / 3 * v)%R).
  { apply Rmult_le_reg_r with (1 - v)%R; [lra|]. replace (v / (1 - v) * (1 - v))%R with v by (field; lra).
    assert (0 <= v * (/ 4 - v))%R by (apply Rmult_le_pos; lra). lra. }
  assert (I : (0 < / ln 2 <= 2)%R).
  { split; [apply Rinv_0_lt_compat; lra|]. replace 2%R with (/ (/ 2))%R at 2 by (field; lra). apply Rinv_le; lra. }
  unfold Rdiv. set (l := ln (1 - v)) in *. set (i := (/ ln 2)%R) in *. clearbody l i.
  assert (- (4 / 3 * v) * i <= l * i)%R by (apply Rmult_le_compat_r; lra).
  assert (v * i <= v * 2)%R by (apply Rmult_le_compat_l; lra). lra.
Qed.

Lemma r64_near : r64 (IZR (50 * 2 ^ 50 - 3) * bpow radix2 (-50)) = 50%R.
Proof.
  pose proof (binary_normalize_correct 53 1024 eq_refl eq_refl mode_NE (50 * 2 ^ 50 - 3) (-50) false) as C.
  cbv zeta in C. change (F2R {| Fnum := 50 * 2 ^ 50 - 3; Fexp := -50 |}) with (IZR (50 * 2 ^ 50 - 3) * bpow radix2 (-50))%R in C.
  rewrite Rlt_bool_true in C.
  - destruct C as (C1 & _). rewrite <- SF2R_B2SF in C1.
    replace (B2SF (binary_normalize 53 1024 eq_refl eq_refl mode_NE (50 * 2 ^ 50 - 3) (-50) false))
      with (B2SF (f64_of_int 50)) in C1 by (vm_compute; reflexivity).
    rewrite SF2R_B2SF in C1. rewrite <- C1. apply of_int64. lia.
  - apply Rle_lt_trans with (bpow radix2 10); [|apply bpow_lt; lia].
    assert (Z0 : (0 <= IZR (50 * 2 ^ 50 - 3) * bpow radix2 (-50) <= bpow radix2 10)%R).
    { split; [apply Rmult_le_pos; [apply IZR_le; lia|apply bpow_ge_0]|].
      change (-50) with (- (50)). rewrite bpow_opp, <- !IZR_Zpower by lia.
      apply Rmult_le_reg_r with (IZR (radix2 ^ 50)); [apply IZR_lt; reflexivity|].
      rewrite Rmult_assoc, Rinv_l by (apply not_0_IZR; discriminate). rewrite Rmult_1_r, <- mult_IZR. apply IZR_le.
      apply Z.leb_le. vm_compute. reflexivity. }
    pose proof (r64_le _ _ (proj1 Z0)) as A1. pose proof (r64_le _ _ (proj2 Z0)) as A2. rewrite r64_0 in A1.
    rewrite Rabs_pos_eq by exact A1. eapply Rle_trans; [exact A2|]. right.
    pose proof (r64_exact 1 10 ltac:(lia) ltac:(lia)) as X. rewrite Rmult_1_l in X. exact X.
Qed.

Theorem huge_side {T} lg : rounded_log2 lg ->
  exists b : buffer T, new_buffer_lib lg (Params [2 ^ 50 - 1] 1 50 1) = Ok b.
Proof.
  intros H. unfold new_buffer_lib. cbn [dimension shape length wtype steps signum Nat.eqb orb negb].
  rewrite min_signal_ok by lia. cbn [bind]. unfold wrap64.
  cbn [min_elem bind]. destruct (Z.ltb_spec (2 ^ 50 - 1) (1 * 2 mod 2 ^ 64)) as [C|_]; [vm_compute in C; discriminate|].
  unfold max_steps_lib. cbn [Z.eqb min_elem bind]. unfold steps_of.
  destruct (quotient_val 1 (2 ^ 50 - 1) ltac:(lia) ltac:(lia)) as (F & E). set (x := f64_div _ _) in *. clearbody x.
  replace (IZR (2 ^ 50 - 1) / IZR (2 * 1 - 1))%R with (IZR (2 ^ 50 - 1)) in E by (change (2 * 1 - 1) with 1; field).
  rewrite r64_int in E by lia.
  destruct (H x F) as (F' & V); [rewrite E; apply IZR_le; lia|].
  set (v := bpow radix2 (-50)).
  assert (Hv : (0 <= v <= / 4)%R).
  { split; [apply bpow_ge_0|]. change (/ 4)%R with (bpow radix2 (-2)). apply bpow_le. lia. }
  assert (EE : B2R x = (bpow radix2 50 * (1 - v))%R).
  { rewrite E. unfold v. rewrite Rmult_minus_distr_l, <- bpow_plus, Rmult_1_r. change (50 + -50) with 0.
    rewrite <- IZR_Zpower by lia. rewrite minus_IZR. reflexivity. }
  assert (L : (IZR (50 * 2 ^ 50 - 3) * bpow radix2 (-50) <= real_log2 (B2R x) <= 50)%R).
  { rewrite EE, log2_mult by (try apply bpow_gt_0; lra). rewrite log2_pow. pose proof (log2_near v Hv) as N.
    pose proof (log2_below v ltac:(lra)). split; [|lra].
    replace (IZR (50 * 2 ^ 50 - 3) * bpow radix2 (-50))%R with (50 - 3 * v)%R; [lra|].
    rewrite minus_IZR, mult_IZR. fold v. rewrite Rmult_minus_distr_r.
    replace (IZR (2 ^ 50)) with (bpow radix2 50) by (rewrite <- IZR_Zpower by lia; reflexivity).
    rewrite Rmult_assoc. unfold v at 2. rewrite <- bpow_plus. change (bpow radix2 (50 + -50)) with 1%R. ring. }
  assert (V50 : B2R (lg x) = 50%R).
  { rewrite V. apply Rle_antisym.
    - rewrite <- (r64_int 50) by lia. apply r64_le. apply L.
    - rewrite <- r64_near. apply r64_le. apply L. }
  rewrite F', V50. rewrite (Zfloor_IZR 50). cbn [guard bind]. eexists. reflexivity.
Qed.
