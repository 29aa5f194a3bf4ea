(** * P_Lossy: bit patterns and numbers; what losing low bits does *)
Require Import List Bool Arith ZArith Lia ZifyBool Reals Lra.
Require Import Flocq.Core.Core Flocq.IEEE754.BinarySingleNaN.
Import ListNotations.
From Verif Require Import M_Base P_Base M_Params M_Buffer M_Float M_Archive P_Archive M_SfCodec M_SfEqual S_Buffer S_Serializer S_Lossy.
Open Scope Z_scope.

(** exponent and mantissa of a pattern *)
Lemma f32_of_word_val w : wbits w mod 2 ^ 31 / 2 ^ 23 <> 255 ->
  let s := 2 ^ 31 <=? wbits w in
  let e := wbits w mod 2 ^ 31 / 2 ^ 23 in
  let f := wbits w mod 2 ^ 31 mod 2 ^ 23 in
  let M := if e =? 0 then f else 2 ^ 23 + f in
  let E := if e =? 0 then -149 else e - 150 in
  B2R (f32_of_word w) = (IZR (cond_Zopp s M) * bpow radix2 E)%R /\ is_finite (f32_of_word w) = true /\
  Bsign (f32_of_word w) = s.
Proof.
  intros Hne s e f M E. unfold f32_of_word. fold s. fold e. fold f.
  pose proof (wbits_range w) as Hw.
  assert (He : 0 <= e < 255).
  { pose proof (Z.mod_pos_bound (wbits w) (2 ^ 31) ltac:(lia)).
    assert (0 <= e) by (apply Z.div_pos; lia). assert (e < 256) by (apply Z.div_lt_upper_bound; lia). lia. }
  assert (Hf : 0 <= f < 2 ^ 23) by (apply Z.mod_pos_bound; lia).
  replace (e =? 255) with false by lia.
  assert (G : f32_of_word w = binary_normalize 24 128 _ _ mode_NE (cond_Zopp s M) E s).
  { unfold f32_of_word. fold s. fold e. fold f. replace (e =? 255) with false by lia. unfold M, E. destruct (e =? 0); reflexivity. }
  replace (if e =? 0 then _ else _) with (binary_normalize 24 128 (eq_refl Lt) (eq_refl Lt) mode_NE (cond_Zopp s M) E s)
    by (unfold M, E; destruct (e =? 0); reflexivity).
  assert (HM : 0 <= M < 2 ^ 24) by (unfold M; destruct (e =? 0); lia).
  assert (HE : -149 <= E <= 104) by (unfold E; destruct (Z.eqb_spec e 0); lia).
  clear G Hne. clearbody M E s. clear e f He Hf Hw.
  pose proof (binary_normalize_correct 24 128 (eq_refl Lt) (eq_refl Lt) mode_NE (cond_Zopp s M) E s) as H. cbv zeta in H.
  change (F2R (Float radix2 (cond_Zopp s M) E)) with (IZR (cond_Zopp s M) * bpow radix2 E)%R in H.
  assert (Hz : Z.abs (cond_Zopp s M) < 2 ^ 24) by (destruct s; cbn [cond_Zopp]; lia).
  rewrite round_generic in H.
  2:{ apply valid_rnd_round_mode. }
  2:{ apply generic_format_FLT. exists (Float radix2 (cond_Zopp s M) E); [reflexivity|exact Hz|].
      cbn [Fexp]. unfold SpecFloat.emin. lia. }
  rewrite Rlt_bool_true in H.
  - destruct H as (H1 & H2 & H3). split; [exact H1|]. split; [exact H2|]. rewrite H3.
    pose proof (bpow_gt_0 radix2 E) as B.
    destruct (Z.eq_dec M 0) as [->|Hn].
    + assert (cond_Zopp s 0 = 0) by (destruct s; reflexivity). rewrite H, Rmult_0_l, Rcompare_Eq by reflexivity. reflexivity.
    + destruct s; cbn [cond_Zopp].
      * rewrite Rcompare_Lt; [reflexivity|]. rewrite opp_IZR. assert (0 < IZR M)%R by (apply IZR_lt; lia). nra.
      * rewrite Rcompare_Gt; [reflexivity|]. assert (0 < IZR M)%R by (apply IZR_lt; lia). nra.
  - rewrite Rabs_mult, (Rabs_pos_eq (bpow _ _)) by apply bpow_ge_0. rewrite <- abs_IZR.
    apply Rlt_le_trans with (bpow radix2 24 * bpow radix2 E)%R.
    + apply Rmult_lt_compat_r; [apply bpow_gt_0|]. rewrite <- IZR_Zpower by lia. apply IZR_lt. exact Hz.
    + rewrite <- bpow_plus. apply bpow_le. lia.
Qed.

Lemma number_val w : finite_word w -> wbits w mod 2 ^ 31 / 2 ^ 23 <> 255.
Proof.
  unfold finite_word, f32_of_word. intros H E. rewrite E in H. cbn [Z.eqb Pos.eqb] in H.
  destruct (wbits w mod 2 ^ 31 mod 2 ^ 23 =? 0); discriminate.
Qed.

(** a float and its pattern *)
Lemma bits_parts (s : bool) m : 0 <= m < 2 ^ 31 -> let w := mkword ((if s then 2 ^ 31 else 0) + m) in
  (2 ^ 31 <=? wbits w) = s /\ wbits w mod 2 ^ 31 = m.
Proof.
  intros H w. assert (wbits w = (if s : bool then 2 ^ 31 else 0) + m).
  { unfold w. cbn [mkword wbits]. apply Z.mod_small. destruct s; lia. }
  rewrite H0. split; [destruct s; lia|]. destruct s.
  - rewrite Z.add_comm. replace (m + 2 ^ 31) with (m + 1 * 2 ^ 31) by lia. rewrite Z.mod_add by lia. apply Z.mod_small; lia.
  - apply Z.mod_small; lia.
Qed.
Lemma pattern_back x : f32_of_word (pattern x) = x.
Proof.
  destruct x as [s|s| |s m e H].
  - destruct s; vm_compute; reflexivity.
  - destruct s; vm_compute; reflexivity.
  - vm_compute. reflexivity.
  - pose proof H as H'. apply andb_prop in H' as (H1 & H2). apply Zeq_bool_eq in H1. apply Zle_bool_imp_le in H2.
    assert (B : Zpos m < 2 ^ 24 /\ -149 <= e /\ (Zpos m < 2 ^ 23 -> e = -149)).
    { unfold SpecFloat.canonical_mantissa, SpecFloat.fexp, SpecFloat.emin in H1. rewrite Digits.Zpos_digits2_pos in H1.
      pose proof (Digits.Zdigits_correct radix2 (Zpos m)) as (D0 & D). change (Z.abs (Zpos m)) with (Zpos m) in D, D0.
      split; [|split; [lia|]].
      - eapply Z.lt_le_trans; [exact D|]. apply (Z.pow_le_mono_r 2); lia.
      - intros Hm. assert (Digits.Zdigits radix2 (Zpos m) <= 23).
        { destruct (Z_le_gt_dec (Digits.Zdigits radix2 (Zpos m)) 23); auto. exfalso.
          assert (2 ^ 23 <= Zpower radix2 (Digits.Zdigits radix2 (Zpos m) - 1)) by (apply (Z.pow_le_mono_r 2); lia). lia. }
        lia. }
    destruct B as (B1 & B2 & B3).
    set (k := if Zpos m <? 2 ^ 23 then Zpos m else (e + 150) * 2 ^ 23 + (Zpos m - 2 ^ 23)).
    assert (Hk : 0 <= k < 255 * 2 ^ 23) by (unfold k; destruct (Z.ltb_spec (Zpos m) (2 ^ 23)); lia).
    destruct (bits_parts s k ltac:(lia)) as [S1 S2]. change (mkword _) with (pattern (B754_finite s m e H)) in S1, S2.
    set (w := pattern (B754_finite s m e H)) in *.
    assert (V : (if k / 2 ^ 23 =? 0 then k mod 2 ^ 23 else 2 ^ 23 + k mod 2 ^ 23) = Zpos m /\ (if k / 2 ^ 23 =? 0 then -149 else k / 2 ^ 23 - 150) = e).
    { unfold k. destruct (Z.ltb_spec (Zpos m) (2 ^ 23)).
      - rewrite Z.div_small, Z.mod_small by lia. split; [reflexivity|]. cbn. symmetry; auto.
      - replace ((e + 150) * 2 ^ 23 + (Zpos m - 2 ^ 23)) with ((Zpos m - 2 ^ 23) + (e + 150) * 2 ^ 23) by lia.
        rewrite Z.div_add, Z.mod_add by lia. rewrite Z.div_small, Z.mod_small by lia.
        destruct (Z.eqb_spec (0 + (e + 150)) 0); lia. }
    destruct V as [V1 V2].
    destruct (f32_of_word_val w) as (R1 & R2 & R3).
    { rewrite S2. assert (k / 2 ^ 23 < 255) by (apply Z.div_lt_upper_bound; lia). lia. }
    rewrite S1, S2 in *. rewrite V1, V2 in R1.
    apply B2R_Bsign_inj; auto.
Qed.

(** clearing at most 23 low bits *)
Lemma clear_low_parts k w : 0 <= k <= 23 -> let w' := clear_low (32 - k) w in
  (2 ^ 31 <=? wbits w') = (2 ^ 31 <=? wbits w) /\
  wbits w' mod 2 ^ 31 / 2 ^ 23 = wbits w mod 2 ^ 31 / 2 ^ 23 /\
  wbits w' mod 2 ^ 31 mod 2 ^ 23 = wbits w mod 2 ^ 31 mod 2 ^ 23 / 2 ^ k * 2 ^ k.
Proof.
  intros Hk w'. pose proof (wbits_range w) as Hw.
  assert (E : wbits w' = wbits w / 2 ^ k * 2 ^ k).
  { unfold w', clear_low. cbn [mkword wbits]. replace (32 - (32 - k)) with k by lia. apply Z.mod_small.
    pose proof (Z.mul_div_le (wbits w) (2 ^ k) ltac:(lia)). pose proof (Z.div_pos (wbits w) (2 ^ k) ltac:(lia) ltac:(lia)). lia. }
  rewrite E. clear E w'. set (z := wbits w) in *. clearbody z. clear w.
  assert (P : 2 ^ 23 = 2 ^ (23 - k) * 2 ^ k) by (rewrite <- Z.pow_add_r by lia; f_equal; lia).
  assert (P31 : 2 ^ 31 = 2 ^ (31 - k) * 2 ^ k) by (rewrite <- Z.pow_add_r by lia; f_equal; lia).
  pose proof (Z.pow_pos_nonneg 2 k ltac:(lia) ltac:(lia)) as Q.
  pose proof (Z.pow_pos_nonneg 2 (23 - k) ltac:(lia) ltac:(lia)) as Q1.
  pose proof (Z.pow_pos_nonneg 2 (31 - k) ltac:(lia) ltac:(lia)) as Q2.
  assert (A1 : z / 2 ^ k * 2 ^ k mod 2 ^ 31 = z mod 2 ^ 31 / 2 ^ k * 2 ^ k).
  { rewrite P31 at 1. rewrite Z.mul_mod_distr_r by lia. f_equal.
    rewrite P31. rewrite (Z.mul_comm (2 ^ (31 - k))). rewrite Z.rem_mul_r by lia.
    rewrite Z.mul_comm, Z.div_add by lia. rewrite (Z.div_small (z mod 2 ^ k)) by (apply Z.mod_pos_bound; lia). reflexivity. }
  assert (A2 : forall y, y / 2 ^ k * 2 ^ k mod 2 ^ 23 = y mod 2 ^ 23 / 2 ^ k * 2 ^ k).
  { intros y. rewrite P at 1. rewrite Z.mul_mod_distr_r by lia. f_equal.
    rewrite P. rewrite (Z.mul_comm (2 ^ (23 - k))). rewrite Z.rem_mul_r by lia.
    rewrite Z.mul_comm, Z.div_add by lia. rewrite (Z.div_small (y mod 2 ^ k)) by (apply Z.mod_pos_bound; lia). reflexivity. }
  assert (A3 : forall y, y / 2 ^ k * 2 ^ k / 2 ^ 23 = y / 2 ^ 23).
  { intros y. rewrite P. rewrite Z.div_mul_cancel_r by lia. rewrite (Z.mul_comm (2 ^ (23 - k))). apply Z.div_div; lia. }
  rewrite A1. split; [|split; [apply A3|apply A2]].
  destruct (Z.leb_spec (2 ^ 31) z) as [H|H].
  - apply Z.leb_le. rewrite P31. apply Z.mul_le_mono_nonneg_r; [lia|]. apply Z.div_le_lower_bound; lia.
  - apply Z.leb_gt. pose proof (Z.mul_div_le z (2 ^ k) ltac:(lia)). lia.
Qed.

Lemma clear_low_loses k : 0 <= k <= 23 -> loses (bpow radix2 (k - 23)) (bpow radix2 (k - 149)) (clear_low (32 - k)).
Proof.
  intros Hk w Hw. pose proof (number_val w Hw) as Hn.
  destruct (clear_low_parts k w Hk) as (S1 & S2 & S3).
  destruct (f32_of_word_val w Hn) as (V & _ & _).
  destruct (f32_of_word_val (clear_low (32 - k) w)) as (V' & F' & _); [rewrite S2; exact Hn|].
  split; [exact F'|]. unfold number. rewrite V, V'. rewrite S1, S2, S3. clear V V' S1 S2 S3 F'.
  set (s := 2 ^ 31 <=? wbits w). set (e := wbits w mod 2 ^ 31 / 2 ^ 23). set (f := wbits w mod 2 ^ 31 mod 2 ^ 23).
  assert (Hf : 0 <= f < 2 ^ 23) by (apply Z.mod_pos_bound; lia).
  assert (D : 0 <= f - f / 2 ^ k * 2 ^ k < 2 ^ k).
  { pose proof (Z.mod_pos_bound f (2 ^ k) ltac:(lia)). pose proof (Z.div_mod f (2 ^ k) ltac:(lia)). lia. }
  set (f' := f / 2 ^ k * 2 ^ k) in *.
  set (M := if e =? 0 then f else 2 ^ 23 + f). set (M' := if e =? 0 then f' else 2 ^ 23 + f').
  set (E := if e =? 0 then -149 else e - 150).
  assert (DM : 0 <= M - M' < 2 ^ k) by (unfold M, M'; destruct (e =? 0); lia).
  pose proof (bpow_gt_0 radix2 E) as BE.
  assert (T : (Rabs (IZR (cond_Zopp s M') * bpow radix2 E - IZR (cond_Zopp s M) * bpow radix2 E) <= bpow radix2 k * bpow radix2 E)%R).
  { rewrite <- Rmult_minus_distr_r, Rabs_mult, (Rabs_pos_eq (bpow radix2 E)) by lra.
    apply Rmult_le_compat_r; [lra|]. rewrite <- minus_IZR, <- abs_IZR, <- IZR_Zpower by lia. apply IZR_le.
    change (Zpower radix2 k) with (2 ^ k). destruct s; cbn [cond_Zopp]; lia. }
  eapply Rle_trans; [exact T|]. rewrite Rabs_mult, (Rabs_pos_eq (bpow radix2 E)) by lra. rewrite <- abs_IZR.
  pose proof (bpow_gt_0 radix2 (k - 23)). pose proof (bpow_gt_0 radix2 (k - 149)).
  destruct (Z.eqb_spec e 0) as [He|He].
  - unfold E. cbv iota. rewrite <- bpow_plus.
    replace (k + -149) with (k - 149) by lia.
    assert (0 <= IZR (Z.abs (cond_Zopp s M)))%R by (apply IZR_le; lia). pose proof (bpow_gt_0 radix2 (-149)).
    assert (0 <= bpow radix2 (k - 23) * (IZR (Z.abs (cond_Zopp s M)) * bpow radix2 (-149)))%R
      by (apply Rmult_le_pos; [lra|apply Rmult_le_pos; lra]).
    lra.
  - assert (A : (bpow radix2 23 <= IZR (Z.abs (cond_Zopp s M)))%R).
    { change (bpow radix2 23) with (IZR (2 ^ 23)). apply IZR_le. unfold M. destruct (Z.eqb_spec e 0); [lia|]. destruct s; cbn [cond_Zopp]; lia. }
    replace (bpow radix2 k) with (bpow radix2 (k - 23) * bpow radix2 23)%R by (rewrite <- bpow_plus; f_equal; lia).
    rewrite Rmult_assoc. assert (bpow radix2 23 * bpow radix2 E <= IZR (Z.abs (cond_Zopp s M)) * bpow radix2 E)%R by (apply Rmult_le_compat_r; lra).
    assert (bpow radix2 (k - 23) * (bpow radix2 23 * bpow radix2 E) <= bpow radix2 (k - 23) * (IZR (Z.abs (cond_Zopp s M)) * bpow radix2 E))%R
      by (apply Rmult_le_compat_l; lra).
    lra.
Qed.

(** zeros stay zeros *)
Lemma zero_number w : is_zero w = true -> number w = 0%R.
Proof.
  unfold is_zero. intros H. pose proof (wbits_range w).
  assert (W : wbits w mod 2 ^ 31 = 0) by (apply orb_prop in H as [H|H]; apply Z.eqb_eq in H; rewrite H; reflexivity).
  unfold number. destruct (f32_of_word_val w) as (V & _ & _); [rewrite W; discriminate|]. rewrite V, W. cbn [Z.div Z.eqb Z.modulo].
  change (0 / 2 ^ 23 =? 0) with true. change (0 mod 2 ^ 23) with 0. cbv iota.
  destruct (2 ^ 31 <=? wbits w); cbn [cond_Zopp]; apply Rmult_0_l.
Qed.
Lemma clean_loses d e q : (0 <= d)%R -> (0 <= e)%R -> loses d e q -> loses d e (fun x => if is_zero x then word_zero else q x).
Proof.
  intros Hd He H x Hx. destruct (is_zero x) eqn:Z; [|apply H; auto].
  split; [reflexivity|]. rewrite (zero_number x Z), (zero_number word_zero eq_refl).
  rewrite Rminus_0_r, Rabs_R0, Rmult_0_r. lra.
Qed.
