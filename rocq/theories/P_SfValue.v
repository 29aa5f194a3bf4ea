(** * P_SfValue: the value that Decompress returns for a value *)
Require Import List ZArith Reals Lra Lia Bool ZifyBool.
Import ListNotations.
Require Import Flocq.Core.Core Flocq.IEEE754.BinarySingleNaN.
From Verif Require Import M_Base P_Base M_Archive P_Archive M_Float P_Float M_Sf S_Sf P_Sf M_SfCodec S_SfCodec P_SfFloat P_SfCodec.
Open Scope Z_scope.

(** ** numbers m * 2^k are exact in doubles *)
Definition ex (x : f64) (m k : Z) : Prop := B2R x = (IZR m * bpow radix2 k)%R /\ is_finite x = true.

Lemma r64_exact m k : Z.abs m < 2 ^ 53 -> -1074 <= k -> r64 (IZR m * bpow radix2 k) = (IZR m * bpow radix2 k)%R.
Proof.
  intros Hm Hk. apply round_generic; [apply valid_rnd_round_mode|].
  apply generic_format_FLT. exists (Float radix2 m k); [reflexivity|cbn [Fnum]; change (Zpower radix2 53) with (2 ^ 53); lia|].
  unfold SpecFloat.emin. cbn [Fexp]. lia.
Qed.
Lemma small_exact m k : Z.abs m < 2 ^ 53 -> k <= 900 -> (Rabs (IZR m * bpow radix2 k) < bpow radix2 1024)%R.
Proof.
  intros Hm Hk. rewrite Rabs_mult, <- abs_IZR, (Rabs_right (bpow _ _)) by (apply Rle_ge, bpow_ge_0).
  apply Rlt_le_trans with (bpow radix2 53 * bpow radix2 k)%R; [|rewrite <- bpow_plus; apply bpow_le; lia].
  apply Rmult_lt_compat_r; [apply bpow_gt_0|]. rewrite <- (IZR_Zpower radix2 53) by lia. apply IZR_lt. exact Hm.
Qed.

Lemma ex_int z : Z.abs z < 2 ^ 53 -> ex (f64_of_int z) z 0.
Proof. intros H. destruct (of_int64 z ltac:(lia)). split; [|auto]. rewrite H0. cbn. ring. Qed.
Lemma ex_pow k : 0 <= k <= 200 -> ex (pow2d k) 1 k.
Proof.
  intros Hk. unfold pow2d.
  pose proof (binary_normalize_correct 53 1024 _ _ mode_NE 1 k false) as H. cbv zeta in H.
  change (F2R (Float radix2 1 k)) with (IZR 1 * bpow radix2 k)%R in H.
  rewrite r64_exact in H by (cbn; lia). rewrite Rlt_bool_true in H by (apply small_exact; cbn; lia). split; tauto.
Qed.
Lemma ex_mul x y a b j k : ex x a j -> ex y b k -> Z.abs (a * b) < 2 ^ 53 -> -1074 <= j + k <= 900 -> ex (f64_mul x y) (a * b) (j + k).
Proof.
  intros (Ex & Fx) (Ey & Fy) Hab Hk. unfold f64_mul.
  pose proof (Bmult_correct 53 1024 _ _ mode_NE x y) as M. rewrite Ex, Ey in M.
  replace (IZR a * bpow radix2 j * (IZR b * bpow radix2 k))%R with (IZR (a * b) * bpow radix2 (j + k))%R in M
    by (rewrite mult_IZR, bpow_plus; ring).
  rewrite r64_exact in M by lia. rewrite Rlt_bool_true in M by (apply small_exact; lia).
  destruct M as (M1 & M2 & _). split; [auto|]. rewrite M2, Fx, Fy. reflexivity.
Qed.
Lemma ex_div x y a j k : ex x a j -> ex y 1 k -> Z.abs a < 2 ^ 53 -> -1074 <= j - k <= 900 -> ex (f64_div x y) a (j - k).
Proof.
  intros (Ex & Fx) (Ey & Fy) Ha Hk. unfold f64_div.
  pose proof (bpow_gt_0 radix2 k) as P.
  pose proof (Bdiv_correct 53 1024 _ _ mode_NE x y ltac:(rewrite Ey; lra)) as M. rewrite Ex, Ey in M.
  replace (IZR a * bpow radix2 j / (1 * bpow radix2 k))%R with (IZR a * bpow radix2 (j - k))%R in M.
  2: { unfold Z.sub. rewrite bpow_plus, bpow_opp. field. lra. }
  rewrite r64_exact in M by lia. rewrite Rlt_bool_true in M by (apply small_exact; lia).
  destruct M as (M1 & M2 & _). split; [auto|]. rewrite M2. exact Fx.
Qed.
Lemma ex_add x y a b k : ex x a k -> ex y b k -> Z.abs (a + b) < 2 ^ 53 -> -1074 <= k <= 900 -> ex (f64_add x y) (a + b) k.
Proof.
  intros (Ex & Fx) (Ey & Fy) Ha Hk. unfold f64_add.
  pose proof (Bplus_correct 53 1024 _ _ mode_NE x y Fx Fy) as M. rewrite Ex, Ey in M.
  replace (IZR a * bpow radix2 k + IZR b * bpow radix2 k)%R with (IZR (a + b) * bpow radix2 k)%R in M by (rewrite plus_IZR; ring).
  rewrite r64_exact in M by lia. rewrite Rlt_bool_true in M by (apply small_exact; lia).
  destruct M as (M1 & M2 & _). split; auto.
Qed.
Lemma ex_scale x a j k : ex x a j -> 0 <= j - k -> ex x (a * 2 ^ (j - k)) k.
Proof.
  intros (Ex & Fx) H. split; [|auto]. rewrite Ex, mult_IZR. change 2 with (radix_val radix2). rewrite IZR_Zpower by lia.
  rewrite Rmult_assoc, <- bpow_plus. do 2 f_equal. lia.
Qed.

(** ** double to float *)
Lemma f32_canonical s (M : positive) e : 2 ^ 23 <= Zpos M < 2 ^ 24 -> -149 <= e <= 104 ->
  forall y : f32, is_finite y = true -> B2R y = (IZR (cond_Zopp s (Zpos M)) * bpow radix2 e)%R ->
  f32_bits y = (if s then 2 ^ 31 else 0) + (e + 150) * 2 ^ 23 + (Zpos M - 2 ^ 23).
Proof.
  intros HM He y Fy Ey.
  assert (Nz : (IZR (cond_Zopp s (Zpos M)) * bpow radix2 e)%R <> 0%R).
  { intros X. apply Rmult_integral in X as [X|X]; [|pose proof (bpow_gt_0 radix2 e); lra].
    apply eq_IZR in X. destruct s; discriminate. }
  destruct y as [s'|s'| |s' m e' H]; try discriminate; [cbn [B2R] in Ey; congruence|].
  cbn [B2R] in Ey.
  assert (C1 : canonical radix2 (SpecFloat.fexp 24 128) (Float radix2 (cond_Zopp s' (Zpos m)) e')).
  { apply canonical_bounded. exact H. }
  assert (C2 : canonical radix2 (SpecFloat.fexp 24 128) (Float radix2 (cond_Zopp s (Zpos M)) e)).
  { unfold canonical, cexp, F2R. cbn [Fnum Fexp].
    rewrite (mag_unique radix2 _ (e + 24)).
    - unfold SpecFloat.fexp, SpecFloat.emin. lia.
    - rewrite Rabs_mult, <- abs_IZR, (Rabs_right (bpow _ _)) by (apply Rle_ge, bpow_ge_0).
      rewrite abs_cond_Zopp. cbn [Z.abs].
      replace (e + 24 - 1) with (23 + e) by lia. replace (e + 24) with (24 + e) by lia. rewrite !bpow_plus.
      rewrite <- (IZR_Zpower radix2 23), <- (IZR_Zpower radix2 24) by lia.
      change (Zpower radix2 23) with (2 ^ 23). change (Zpower radix2 24) with (2 ^ 24).
      split; [apply Rmult_le_compat_r; [apply bpow_ge_0|apply IZR_le; lia]|apply Rmult_lt_compat_r; [apply bpow_gt_0|apply IZR_lt; lia]]. }
  pose proof (canonical_unique _ _ _ _ C1 C2 Ey) as U. inversion U as [[U1 U2]].
  assert (s' = s /\ m = M) as (-> & ->) by (destruct s, s'; cbn in U1; inversion U1; auto).
  cbn [f32_bits]. destruct (Z.ltb_spec (Zpos M) (2 ^ 23)); lia.
Qed.

Lemma narrow_normal x s (M : positive) e : ex x (cond_Zopp s (Zpos M)) e -> 2 ^ 23 <= Zpos M < 2 ^ 24 -> -149 <= e <= 104 ->
  f32_bits (f32_of_f64 x) = (if s then 2 ^ 31 else 0) + (e + 150) * 2 ^ 23 + (Zpos M - 2 ^ 23).
Proof.
  intros (Ex & Fx) HM He.
  assert (G : r32 (IZR (cond_Zopp s (Zpos M)) * bpow radix2 e) = (IZR (cond_Zopp s (Zpos M)) * bpow radix2 e)%R).
  { apply round_generic; [apply valid_rnd_round_mode|]. apply generic_format_FLT.
    exists (Float radix2 (cond_Zopp s (Zpos M)) e); [reflexivity| |unfold SpecFloat.emin; cbn [Fexp]; lia].
    cbn [Fnum]. rewrite abs_cond_Zopp. change (Zpower radix2 24) with (2 ^ 24). cbn [Z.abs]. lia. }
  assert (L : (Rabs (IZR (cond_Zopp s (Zpos M)) * bpow radix2 e) < bpow radix2 128)%R).
  { rewrite Rabs_mult, <- abs_IZR, (Rabs_right (bpow _ _)) by (apply Rle_ge, bpow_ge_0). rewrite abs_cond_Zopp. cbn [Z.abs].
    apply Rlt_le_trans with (bpow radix2 24 * bpow radix2 e)%R; [|rewrite <- bpow_plus; apply bpow_le; lia].
    apply Rmult_lt_compat_r; [apply bpow_gt_0|]. rewrite <- (IZR_Zpower radix2 24) by lia. apply IZR_lt. apply HM. }
  assert (Nz : (IZR (cond_Zopp s (Zpos M)) * bpow radix2 e)%R <> 0%R).
  { intros X. apply Rmult_integral in X as [X|X]; [|pose proof (bpow_gt_0 radix2 e); lra].
    apply eq_IZR in X. destruct s; discriminate. }
  destruct x as [s'|s'| |s' m e' H]; try discriminate; [cbn [B2R] in Ex; congruence|].
  cbn [f32_of_f64].
  pose proof (binary_normalize_correct 24 128 _ _ mode_NE (cond_Zopp s' (Zpos m)) e' s') as N. cbv zeta in N.
  change (F2R _) with (B2R (B754_finite (prec := 53) (emax := 1024) s' m e' H)) in N.
  rewrite Ex, G in N. rewrite Rlt_bool_true in N by exact L.
  apply f32_canonical; auto; tauto.
Qed.

Lemma narrow_inf x s (M : positive) e : ex x (cond_Zopp s (Zpos M)) e -> (bpow radix2 128 <= IZR (Zpos M) * bpow radix2 e)%R ->
  f32_bits (f32_of_f64 x) = (if s then 2 ^ 31 else 0) + 255 * 2 ^ 23.
Proof.
  intros (Ex & Fx) HM.
  assert (Nz : (IZR (cond_Zopp s (Zpos M)) * bpow radix2 e)%R <> 0%R).
  { intros X. apply Rmult_integral in X as [X|X]; [|pose proof (bpow_gt_0 radix2 e); lra].
    apply eq_IZR in X. destruct s; discriminate. }
  destruct x as [s'|s'| |s' m e' H]; try discriminate; [cbn [B2R] in Ex; congruence|].
  assert (Es : s' = s).
  { cbn [B2R] in Ex. unfold F2R in Ex. cbn [Fnum Fexp] in Ex. pose proof (bpow_gt_0 radix2 e). pose proof (bpow_gt_0 radix2 e').
    destruct s, s'; auto; exfalso; cbn [cond_Zopp] in Ex; rewrite ?opp_IZR in Ex;
      assert (0 < IZR (Zpos m))%R by (apply IZR_lt; lia); assert (0 < IZR (Zpos M))%R by (apply IZR_lt; lia); nra. }
  subst s'. cbn [f32_of_f64].
  pose proof (binary_normalize_correct 24 128 _ _ mode_NE (cond_Zopp s (Zpos m)) e' s) as N. cbv zeta in N.
  change (F2R _) with (B2R (B754_finite (prec := 53) (emax := 1024) s m e' H)) in N.
  rewrite Ex in N.
  assert (G128 : generic_format radix2 (SpecFloat.fexp 24 128) (bpow radix2 128)).
  { apply generic_format_bpow. unfold SpecFloat.fexp, SpecFloat.emin. lia. }
  rewrite Rlt_bool_false in N.
  2: { apply abs_round_ge_generic; [apply FLT_exp_valid; reflexivity|apply valid_rnd_round_mode|exact G128|].
       rewrite Rabs_mult, <- abs_IZR, (Rabs_right (bpow _ _)) by (apply Rle_ge, bpow_ge_0). rewrite abs_cond_Zopp. exact HM. }
  assert (Sg : Rlt_bool (IZR (cond_Zopp s (Zpos M)) * bpow radix2 e) 0 = s).
  { pose proof (bpow_gt_0 radix2 e). assert (0 < IZR (Zpos M))%R by (apply IZR_lt; lia).
    destruct s; cbn [cond_Zopp]; [apply Rlt_bool_true|apply Rlt_bool_false]; rewrite ?opp_IZR; nra. }
  rewrite Sg in N. destruct (binary_normalize _ _ _ _ _ _ _ _) as [z|z| |z ? ? ?]; cbn in N; destruct s; inversion N; reflexivity.
Qed.

(** ** The value of an exponent and a fraction *)
Lemma sf_value_ex (s : bool) fl e f : 7 <= fl <= 23 -> 0 <= f < 2 ^ fl -> 1 <= e <= 255 ->
  ex (let x := f64_mul (f64_of_int (if s then -1 else 1)) (f64_add (f64_of_int 1) (f64_div (f64_of_int f) (pow2d fl))) in
      if 127 <? e then f64_mul x (pow2d (e - 127)) else if 0 <? e then f64_div x (pow2d (127 - e)) else f64_of_int 0)
     (cond_Zopp s (2 ^ fl + f)) (e - 127 - fl).
Proof.
  intros Hfl Hf He. cbv zeta.
  assert (P : 0 < 2 ^ fl <= 2 ^ 23) by (split; [apply pow2_pos|apply pow2_le]; lia).
  assert (P2 : 2 ^ 24 < 2 ^ 53) by reflexivity. assert (E24 : 2 ^ 24 = 2 * 2 ^ 23) by reflexivity.
  pose proof (ex_div _ _ f 0 fl (ex_int f ltac:(lia)) (ex_pow fl ltac:(lia)) ltac:(lia) ltac:(lia)) as X1.
  pose proof (ex_scale _ 1 0 (0 - fl) (ex_int 1 ltac:(lia)) ltac:(lia)) as X2.
  replace (1 * 2 ^ (0 - (0 - fl))) with (2 ^ fl) in X2 by (replace (0 - (0 - fl)) with fl by lia; lia).
  pose proof (ex_add _ _ _ _ _ X2 X1 ltac:(lia) ltac:(lia)) as X3.
  pose proof (ex_int (if s then -1 else 1) ltac:(destruct s; cbn; lia)) as X4.
  pose proof (ex_mul _ _ _ _ _ _ X4 X3 ltac:(destruct s; lia) ltac:(lia)) as X5.
  replace ((if s then -1 else 1) * (2 ^ fl + f)) with (cond_Zopp s (2 ^ fl + f)) in X5 by (destruct s; cbn [cond_Zopp]; lia).
  set (x := f64_mul (f64_of_int (if s then -1 else 1)) _) in *.
  assert (A : Z.abs (cond_Zopp s (2 ^ fl + f)) < 2 ^ 53) by (rewrite abs_cond_Zopp; lia).
  destruct (Z.ltb_spec 127 e).
  - pose proof (ex_mul _ _ _ _ _ _ X5 (ex_pow (e - 127) ltac:(lia)) ltac:(rewrite Z.mul_1_r; lia) ltac:(lia)) as X6.
    rewrite Z.mul_1_r in X6. replace (e - 127 - fl) with (0 + (0 - fl) + (e - 127)) by lia. exact X6.
  - destruct (Z.ltb_spec 0 e); [|lia].
    pose proof (ex_div _ _ _ _ _ X5 (ex_pow (127 - e) ltac:(lia)) A ltac:(lia)) as X6.
    replace (e - 127 - fl) with (0 + (0 - fl) - (127 - e)) by lia. exact X6.
Qed.

Lemma cond_mul s a b : cond_Zopp s a * b = cond_Zopp s (a * b).
Proof. destruct s; cbn [cond_Zopp]; lia. Qed.

Lemma sf_value_bits (s : bool) fl e f : 7 <= fl <= 23 -> 0 <= f < 2 ^ fl -> 0 <= e <= 255 ->
  wbits (sf_value s fl e f) =
    if e =? 0 then 0 else (if s then 2 ^ 31 else 0) + (if e =? 255 then 255 * 2 ^ 23 else (e * 2 ^ fl + f) * 2 ^ (23 - fl)).
Proof.
  intros Hfl Hf He.
  assert (P : 0 < 2 ^ fl <= 2 ^ 23) by (split; [apply pow2_pos|apply pow2_le]; lia).
  assert (Pw : 0 < 2 ^ (23 - fl)) by (apply pow2_pos; lia).
  assert (E23 : 2 ^ fl * 2 ^ (23 - fl) = 2 ^ 23) by (rewrite <- pow2_add by lia; f_equal; lia).
  unfold sf_value. cbv zeta. cbn [wbits mkword].
  destruct (Z.eqb_spec e 0) as [->|N0].
  { reflexivity. }
  pose proof (sf_value_ex s fl e f Hfl Hf ltac:(lia)) as X. cbv zeta in X.
  set (x := if 127 <? e then _ else _) in *. clearbody x.
  destruct (Z.eqb_spec e 255) as [->|N255].
  - destruct (2 ^ fl + f) as [|M|M] eqn:EM; try lia.
    assert (L : (bpow radix2 128 <= IZR (Zpos M) * bpow radix2 (255 - 127 - fl))%R).
    { replace 128 with (fl + (255 - 127 - fl)) at 1 by lia. rewrite bpow_plus.
      apply Rmult_le_compat_r; [apply bpow_ge_0|]. rewrite <- (IZR_Zpower radix2 fl) by lia. apply IZR_le.
      change (Zpower radix2 fl) with (2 ^ fl). lia. }
    rewrite (narrow_inf _ _ _ _ X L). destruct s; reflexivity.
  - pose proof (ex_scale _ _ _ (e - 150) X ltac:(lia)) as Y. replace (e - 127 - fl - (e - 150)) with (23 - fl) in Y by lia.
    rewrite cond_mul in Y.
    assert (HM : 2 ^ 23 <= (2 ^ fl + f) * 2 ^ (23 - fl) < 2 ^ 24) by (change (2 ^ 24) with (2 * 2 ^ 23); nia).
    assert (EM : (2 ^ fl + f) * 2 ^ (23 - fl) = 2 ^ 23 + f * 2 ^ (23 - fl)) by lia.
    destruct ((2 ^ fl + f) * 2 ^ (23 - fl)) as [|M|M]; [lia| |lia].
    rewrite (narrow_normal _ _ _ _ Y HM ltac:(lia)).
    replace (e - 150 + 150) with e by lia.
    replace ((e * 2 ^ fl + f) * 2 ^ (23 - fl)) with (e * 2 ^ 23 + f * 2 ^ (23 - fl)) by (rewrite Z.mul_add_distr_r, <- Z.mul_assoc, E23; reflexivity).
    replace (Z.pos M - 2 ^ 23) with (f * 2 ^ (23 - fl)) by lia.
    assert (f * 2 ^ (23 - fl) < 2 ^ 23) by nia.
    rewrite Z.mod_small; [destruct s; lia|]. destruct s; nia.
Qed.

(** ** Rounding of the fraction *)
Lemma div_mod_31 z : 0 <= z < 2 ^ 32 -> z = z / 2 ^ 31 * 2 ^ 31 + z mod 2 ^ 31 /\ (z / 2 ^ 31 = 0 \/ z / 2 ^ 31 = 1) /\ 0 <= z mod 2 ^ 31 < 2 ^ 31.
Proof.
  intros Hz. pose proof (Z.div_mod z (2 ^ 31) ltac:(lia)). pose proof (Z.mod_pos_bound z (2 ^ 31) ltac:(lia)).
  repeat split; try lia.
Qed.

(** the exponent, the fraction and the next bit of the fraction *)
Lemma fields z fl : 0 <= z < 2 ^ 32 -> 7 <= fl <= 23 -> let m := z mod 2 ^ 31 in
  w32 (Z.shiftl z 1) / 2 ^ 24 = m / 2 ^ 23 /\
  w32 (Z.shiftl z 9) / 2 ^ (32 - fl) = m mod 2 ^ 23 / 2 ^ (23 - fl) /\
  (fl < 23 -> w32 (Z.shiftl z (9 + fl)) / 2 ^ 31 = m mod 2 ^ (23 - fl) / 2 ^ (22 - fl)).
Proof.
  intros Hz Hfl m.
  assert (G : forall j, 1 <= j <= 32 -> w32 (Z.shiftl z j) = (m mod 2 ^ (32 - j)) * 2 ^ j).
  { intros j Hj. unfold w32. rewrite Z.shiftl_mul_pow2 by lia.
    replace (2 ^ 32) with (2 ^ (32 - j) * 2 ^ j) by (rewrite <- pow2_add by lia; f_equal; lia).
    assert (0 < 2 ^ (32 - j)) by (apply pow2_pos; lia). assert (0 < 2 ^ j) by (apply pow2_pos; lia).
    rewrite Z.mul_mod_distr_r by lia. f_equal. unfold m.
    replace (2 ^ 31) with (2 ^ (32 - j) * 2 ^ (j - 1)) by (rewrite <- pow2_add by lia; f_equal; lia).
    assert (0 < 2 ^ (j - 1)) by (apply pow2_pos; lia).
    rewrite Z.rem_mul_r by lia. rewrite Z.mul_comm, Z_mod_plus_full, Z.mod_mod by lia. reflexivity. }
  assert (D : forall a j k, 0 <= j <= k -> a * 2 ^ j / 2 ^ k = a / 2 ^ (k - j)).
  { intros a j k H. assert (0 < 2 ^ (k - j)) by (apply pow2_pos; lia). assert (0 < 2 ^ j) by (apply pow2_pos; lia).
    replace (2 ^ k) with (2 ^ (k - j) * 2 ^ j) by (rewrite <- pow2_add by lia; f_equal; lia).
    apply Z.div_mul_cancel_r; lia. }
  split; [|split].
  - rewrite G, D by lia. change (32 - 1) with 31. change (24 - 1) with 23. unfold m. rewrite Z.mod_mod by lia. reflexivity.
  - rewrite G, D by lia. change (32 - 9) with 23. do 2 f_equal. lia.
  - intros Hl. rewrite G, D by lia. replace (32 - (9 + fl)) with (23 - fl) by lia. replace (31 - (9 + fl)) with (22 - fl) by lia. reflexivity.
Qed.

Lemma dec_word_bits fl w : 7 <= fl <= 23 -> is_zero w = false -> dec_word fl w = kept fl w.
Proof.
  intros Hfl Hz. pose proof (word_bits w) as Hb. unfold dec_word, to_bf16. rewrite Hz.
  destruct (fields (wbits w) fl Hb Hfl) as (F1 & F2 & F3). rewrite F1, F2.
  rewrite pow2i_ok by lia. cbn [bind].
  destruct (div_mod_31 _ Hb) as (Dz & Ds & Dm).
  unfold kept. set (z := wbits w) in *. set (m := z mod 2 ^ 31) in *. set (s := z / 2 ^ 31) in *.
  set (e := m / 2 ^ 23) in *. set (f := m mod 2 ^ 23 / 2 ^ (23 - fl)) in *.
  assert (Pf : 0 < 2 ^ fl) by (apply pow2_pos; lia). assert (Pw : 0 < 2 ^ (23 - fl)) by (apply pow2_pos; lia).
  assert (E23 : 2 ^ 23 = 2 ^ fl * 2 ^ (23 - fl)) by (rewrite <- pow2_add by lia; f_equal; lia).
  pose proof (Z.div_mod m (2 ^ 23) ltac:(lia)) as M1. pose proof (Z.mod_pos_bound m (2 ^ 23) ltac:(lia)) as M2. fold e in M1.
  pose proof (Z.div_mod (m mod 2 ^ 23) (2 ^ (23 - fl)) ltac:(lia)) as M3. fold f in M3.
  pose proof (Z.mod_pos_bound (m mod 2 ^ 23) (2 ^ (23 - fl)) ltac:(lia)) as M4.
  assert (Mm : (m mod 2 ^ 23) mod 2 ^ (23 - fl) = m mod 2 ^ (23 - fl)).
  { rewrite E23, (Z.mul_comm (2 ^ fl)). rewrite Z.rem_mul_r by lia. rewrite Z.mul_comm, Z_mod_plus_full, Z.mod_mod by lia. reflexivity. }
  rewrite Mm in M3, M4. set (r := m mod 2 ^ (23 - fl)) in *.
  assert (He : 0 <= e <= 255) by (change (2 ^ 31) with (256 * 2 ^ 23) in Dm; lia).
  assert (Hf : 0 <= f < 2 ^ fl) by nia.
  assert (Em : m = (e * 2 ^ fl + f) * 2 ^ (23 - fl) + r) by nia.
  assert (Ew : w32 (Z.shiftl s fl) = s * 2 ^ fl).
  { rewrite Z.shiftl_mul_pow2 by lia. apply w32_id. assert (2 ^ fl <= 2 ^ 23) by (apply pow2_le; lia).
    assert (2 ^ 23 < 2 ^ 32) by reflexivity. nia. }
  rewrite Ew.
  (* the rounded fields *)
  set (up := (fl <? 23) && (w32 (Z.shiftl z (9 + fl)) / 2 ^ 31 =? 1)).
  assert (Near : nearest fl m = (e * 2 ^ fl + f + (if up then 1 else 0)) * 2 ^ (23 - fl)).
  { unfold nearest, up. destruct (Z.eqb_spec fl 23) as [->|N23].
    - cbn [Z.ltb]. change (23 <? 23) with false. cbn [andb]. change (2 ^ (23 - 23)) with 1 in *. lia.
    - destruct (Z.ltb_spec fl 23) as [L23|]; [|lia]. cbn [andb]. rewrite (F3 L23). fold r.
      assert (Ph : 0 < 2 ^ (22 - fl)) by (apply pow2_pos; lia).
      assert (Eh : 2 ^ (23 - fl) = 2 * 2 ^ (22 - fl)) by (change 2 with (2 ^ 1) at 2; rewrite <- pow2_add by lia; f_equal; lia).
      assert (Dr : r / 2 ^ (22 - fl) = if 2 ^ (22 - fl) <=? r then 1 else 0).
      { destruct (Z.leb_spec (2 ^ (22 - fl)) r).
        - symmetry. apply (Z.div_unique r (2 ^ (22 - fl)) 1 (r - 2 ^ (22 - fl))); lia.
        - apply Z.div_small. lia. }
      rewrite Dr. f_equal.
      destruct (Z.leb_spec (2 ^ (22 - fl)) r).
      + change (1 =? 1) with true. symmetry. apply (Z.div_unique _ _ _ (r - 2 ^ (22 - fl))); [lia|].
        rewrite Em, Eh. ring.
      + change (0 =? 1) with false. symmetry. apply (Z.div_unique _ _ _ (r + 2 ^ (22 - fl))); [lia|].
        rewrite Em, Eh. ring. }
  rewrite Near.
  assert (Hm0 : 1 <= e * 2 ^ fl + f \/ e = 0) by lia.
  assert (Sgn : (if s =? 1 then 2 ^ 31 else 0) = s * 2 ^ 31) by (destruct Ds as [-> | ->]; reflexivity).
  assert (Hk : forall e' f', 0 <= e' <= 255 -> 0 <= f' < 2 ^ fl ->
    (e' < 255 -> e' * 2 ^ fl + f' = e * 2 ^ fl + f + (if up then 1 else 0)) ->
    (e' = 255 -> 255 * 2 ^ fl <= e * 2 ^ fl + f + (if up then 1 else 0)) ->
    sf_value (s =? 1) fl e' (f' + s * 2 ^ fl - s * 2 ^ fl) =
    mkword (let m := (e * 2 ^ fl + f + (if up then 1 else 0)) * 2 ^ (23 - fl) in
            if m <? 2 ^ 23 then 0 else if m <? 255 * 2 ^ 23 then s * 2 ^ 31 + m else s * 2 ^ 31 + 255 * 2 ^ 23)).
  { intros e' f' He' Hf' A1 A2. apply word_eq. replace (f' + s * 2 ^ fl - s * 2 ^ fl) with f' by lia.
    rewrite sf_value_bits by (auto; lia). rewrite Sgn. cbn [wbits mkword].
    set (v := e * 2 ^ fl + f + (if up then 1 else 0)) in *. clearbody v. cbv zeta.
    assert (Hs : 0 <= s * 2 ^ 31 <= 2 ^ 31) by lia.
    destruct (Z.eqb_spec e' 0) as [Z0|N0].
    - specialize (A1 ltac:(lia)). destruct (Z.ltb_spec (v * 2 ^ (23 - fl)) (2 ^ 23)); [reflexivity|nia].
    - destruct (Z.eqb_spec e' 255) as [E255|N255].
      + specialize (A2 E255). destruct (Z.ltb_spec (v * 2 ^ (23 - fl)) (2 ^ 23)); [nia|].
        destruct (Z.ltb_spec (v * 2 ^ (23 - fl)) (255 * 2 ^ 23)); [nia|]. rewrite Z.mod_small by lia. lia.
      + specialize (A1 ltac:(lia)). rewrite A1.
        destruct (Z.ltb_spec (v * 2 ^ (23 - fl)) (2 ^ 23)); [nia|].
        destruct (Z.ltb_spec (v * 2 ^ (23 - fl)) (255 * 2 ^ 23)); [|nia]. rewrite Z.mod_small by lia. lia. }
  destruct up.
  - destruct (Z.eqb_spec (f + 1) (2 ^ fl)) as [Ef|Nf].
    + destruct (Z.ltb_spec e 255).
      * apply (Hk (e + 1) 0); lia.
      * apply (Hk e 0); lia.
    + apply (Hk e (f + 1)); lia.
  - apply (Hk e f); lia.
Qed.

(** ** How far the value is from the one given *)
Definition mag_value (m : Z) : R := (IZR (2 ^ 23 + m mod 2 ^ 23) * powerRZ 2 (m / 2 ^ 23 - 150))%R.

Lemma nearest_near fl m : 7 <= fl <= 23 -> 0 <= m -> Z.abs (nearest fl m - m) * 2 ^ (fl + 1) <= 2 ^ 23 /\
  m / 2 ^ 23 * 2 ^ 23 <= nearest fl m <= (m / 2 ^ 23 + 1) * 2 ^ 23.
Proof.
  intros Hfl Hm. unfold nearest.
  pose proof (Z.div_mod m (2 ^ 23) ltac:(lia)) as D. pose proof (Z.mod_pos_bound m (2 ^ 23) ltac:(lia)) as B.
  destruct (Z.eqb_spec fl 23) as [->|N]; [replace (m - m) with 0 by lia; cbn [Z.abs]; lia|].
  set (e := m / 2 ^ 23) in *.
  assert (Ph : 0 < 2 ^ (22 - fl)) by (apply pow2_pos; lia).
  assert (Eh : 2 ^ (23 - fl) = 2 * 2 ^ (22 - fl)) by (change 2 with (2 ^ 1) at 2; rewrite <- pow2_add by lia; f_equal; lia).
  assert (E23 : 2 ^ 23 = 2 ^ fl * 2 ^ (23 - fl)) by (rewrite <- pow2_add by lia; f_equal; lia).
  assert (E22 : 2 ^ (22 - fl) * 2 ^ (fl + 1) = 2 ^ 23) by (rewrite <- pow2_add by lia; f_equal; lia).
  pose proof (Z.div_mod (m + 2 ^ (22 - fl)) (2 ^ (23 - fl)) ltac:(lia)) as D2.
  pose proof (Z.mod_pos_bound (m + 2 ^ (22 - fl)) (2 ^ (23 - fl)) ltac:(lia)) as B2.
  set (q := (m + 2 ^ (22 - fl)) / 2 ^ (23 - fl)) in *.
  assert (Hq : - 2 ^ (22 - fl) <= q * 2 ^ (23 - fl) - m <= 2 ^ (22 - fl)) by lia.
  split.
  - assert (Z.abs (q * 2 ^ (23 - fl) - m) <= 2 ^ (22 - fl)) by lia.
    assert (0 < 2 ^ (fl + 1)) by (apply pow2_pos; lia). nia.
  - assert (P : 0 < 2 ^ fl) by (apply pow2_pos; lia). set (h := 2 ^ (22 - fl)) in *. set (w := 2 ^ (23 - fl)) in *. set (p := 2 ^ fl) in *.
    clearbody h w p q e. rewrite E23 in *. clear E23.
    assert (e * p <= q) by nia. assert (q <= (e + 1) * p) by nia. nia.
Qed.

Lemma mag_linear m n : 0 <= m -> m / 2 ^ 23 * 2 ^ 23 <= n <= (m / 2 ^ 23 + 1) * 2 ^ 23 ->
  mag_value n = (IZR (2 ^ 23 + n - m / 2 ^ 23 * 2 ^ 23) * powerRZ 2 (m / 2 ^ 23 - 150))%R.
Proof.
  intros Hm Hn. set (e := m / 2 ^ 23) in *. unfold mag_value.
  destruct (Z.eq_dec n ((e + 1) * 2 ^ 23)) as [->|N].
  - rewrite Z.div_mul, Z.mod_mul by lia. replace (e + 1 - 150) with (e - 150 + 1) by lia.
    rewrite powerRZ_add by lra. rewrite powerRZ_1.
    replace (2 ^ 23 + (e + 1) * 2 ^ 23 - e * 2 ^ 23) with (2 ^ 23 * 2) by lia. rewrite Z.add_0_r, mult_IZR. ring.
  - assert (E : n / 2 ^ 23 = e) by (symmetry; apply (Z.div_unique n (2 ^ 23) e (n - e * 2 ^ 23)); lia).
    rewrite E. do 2 f_equal. rewrite Z.mod_eq by lia. rewrite E. lia.
Qed.

Lemma kept_bits fl w : 7 <= fl <= 23 -> normal w -> normal (kept fl w) ->
  wbits (kept fl w) mod 2 ^ 31 = nearest fl (wbits w mod 2 ^ 31) /\ (wbits (kept fl w) <? 2 ^ 31) = (wbits w <? 2 ^ 31).
Proof.
  intros Hfl Hw Hk. pose proof (word_bits w) as Hb. destruct (div_mod_31 _ Hb) as (Dz & Ds & Dm).
  unfold normal, kept in *. cbn [mkword wbits] in *. set (n := nearest fl (wbits w mod 2 ^ 31)) in *.
  assert (Hn : 2 ^ 23 <= n < 255 * 2 ^ 23).
  { destruct (Z.ltb_spec n (2 ^ 23)); [cbn in Hk; lia|]. destruct (Z.ltb_spec n (255 * 2 ^ 23)); [lia|exfalso].
    assert (Z0 : ((wbits w / 2 ^ 31 * 2 ^ 31 + 255 * 2 ^ 23) mod 2 ^ 32) mod 2 ^ 31 = 255 * 2 ^ 23).
    { destruct Ds as [-> | ->]; reflexivity. }
    rewrite Z0 in Hk. lia. }
  destruct (Z.ltb_spec n (2 ^ 23)); [lia|]. destruct (Z.ltb_spec n (255 * 2 ^ 23)); [|lia].
  set (s := wbits w / 2 ^ 31) in *. rewrite (Z.mod_small (s * 2 ^ 31 + n)) by lia. split.
  - rewrite Z.add_comm, Z_mod_plus_full. apply Z.mod_small. lia.
  - destruct (Z.ltb_spec (s * 2 ^ 31 + n) (2 ^ 31)), (Z.ltb_spec (wbits w) (2 ^ 31)); auto; lia.
Qed.

Lemma kept_close fl w : 7 <= fl <= 23 -> normal w -> normal (kept fl w) ->
  (Rabs (float_value (kept fl w) - float_value w) <= Rabs (float_value w) / 2 ^ Z.to_nat (fl + 1))%R.
Proof.
  intros Hfl Hw Hk. destruct (kept_bits fl w Hfl Hw Hk) as (Em & Es).
  unfold float_value. rewrite Em, Es. set (m := wbits w mod 2 ^ 31) in *.
  assert (Hm : 0 <= m) by (unfold normal in Hw; fold m in Hw; lia).
  destruct (nearest_near fl m Hfl Hm) as (N1 & N2). set (n := nearest fl m) in *.
  pose proof (mag_linear m n Hm N2) as Ln. unfold mag_value in Ln.
  pose proof (Z.div_mod m (2 ^ 23) ltac:(lia)) as D. pose proof (Z.mod_pos_bound m (2 ^ 23) ltac:(lia)) as B.
  set (e := m / 2 ^ 23) in *.
  set (c := (if wbits w <? 2 ^ 31 then 1 else -1)%R).
  assert (Hc : Rabs c = 1%R) by (unfold c; destruct (wbits w <? 2 ^ 31); unfold Rabs; destruct Rcase_abs; lra).
  rewrite (Rmult_assoc c (IZR (2 ^ 23 + n mod 2 ^ 23))), Ln.
  set (p := powerRZ 2 (e - 150)). assert (Pp : (0 < p)%R) by (apply powerRZ_lt; lra).
  replace (c * (IZR (2 ^ 23 + n - e * 2 ^ 23) * p) - c * IZR (2 ^ 23 + m mod 2 ^ 23) * p)%R with (c * IZR (n - m) * p)%R.
  2: { replace (2 ^ 23 + n - e * 2 ^ 23) with ((n - m) + (2 ^ 23 + m mod 2 ^ 23)) by lia. rewrite plus_IZR. ring. }
  rewrite !Rabs_mult, Hc, !Rmult_1_l, (Rabs_right p) by lra. unfold Rdiv.
  replace (Rabs (IZR (2 ^ 23 + m mod 2 ^ 23)) * p * / 2 ^ Z.to_nat (fl + 1))%R
    with (Rabs (IZR (2 ^ 23 + m mod 2 ^ 23)) * / 2 ^ Z.to_nat (fl + 1) * p)%R by ring.
  apply Rmult_le_compat_r; [lra|].
  assert (P2 : (0 < 2 ^ Z.to_nat (fl + 1))%R) by (apply pow_lt; lra).
  apply Rmult_le_reg_r with (2 ^ Z.to_nat (fl + 1))%R; [auto|]. rewrite Rmult_assoc, Rinv_l, Rmult_1_r by lra.
  rewrite pow_IZR, Z2Nat.id by lia. rewrite <- !abs_IZR, <- mult_IZR. apply IZR_le.
  apply Z.le_trans with (1 := N1). lia.
Qed.

Lemma kept_exact w : normal w -> kept 23 w = w.
Proof.
  intros Hw. pose proof (word_bits w) as Hb. destruct (div_mod_31 _ Hb) as (Dz & Ds & Dm).
  apply word_eq. unfold normal, kept, nearest in *. cbn [mkword wbits]. change (23 =? 23) with true. cbv iota.
  destruct (Z.ltb_spec (wbits w mod 2 ^ 31) (2 ^ 23)); [lia|]. destruct (Z.ltb_spec (wbits w mod 2 ^ 31) (255 * 2 ^ 23)); [|lia].
  rewrite Z.mod_small by lia. lia.
Qed.

Lemma kept_normal fl w : 7 <= fl <= 23 -> normal w -> wbits w mod 2 ^ 31 < 255 * 2 ^ 23 - 2 ^ 15 -> normal (kept fl w).
Proof.
  intros Hfl Hw Hlt. pose proof (word_bits w) as Hb. destruct (div_mod_31 _ Hb) as (Dz & Ds & Dm).
  unfold normal in *. set (m := wbits w mod 2 ^ 31) in *.
  destruct (nearest_near fl m Hfl ltac:(lia)) as (N1 & N2).
  assert (P : 2 ^ 8 <= 2 ^ (fl + 1)) by (apply pow2_le; lia).
  assert (A : Z.abs (nearest fl m - m) <= 2 ^ 15).
  { destruct (Z.le_gt_cases (Z.abs (nearest fl m - m)) (2 ^ 15)) as [|G]; [auto|].
    assert (2 ^ 15 * 2 ^ 8 < Z.abs (nearest fl m - m) * 2 ^ (fl + 1)) by nia. change (2 ^ 15 * 2 ^ 8) with (2 ^ 23) in *. lia. }
  assert (1 <= m / 2 ^ 23) by (apply Z.div_le_lower_bound; lia).
  unfold kept. fold m. cbn [mkword wbits]. destruct (Z.ltb_spec (nearest fl m) (2 ^ 23)); [lia|].
  destruct (Z.ltb_spec (nearest fl m) (255 * 2 ^ 23)); [|lia].
  set (s := wbits w / 2 ^ 31) in *. rewrite (Z.mod_small (s * 2 ^ 31 + _)) by lia.
  rewrite Z.add_comm, Z_mod_plus_full, Z.mod_small by lia. lia.
Qed.
