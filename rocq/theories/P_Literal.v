(** * P_Literal: the literals of the source are rounded once, to nearest *)
Require Import Bool ZArith QArith Qreals Lia Reals Lra.
Require Import Flocq.Core.Core Flocq.Prop.Round_odd Flocq.IEEE754.BinarySingleNaN.
Require Import Verif.M_Float Verif.M_Binary32 Verif.M_ColorF Verif.P_Float Verif.P_SfFloat Verif.P_Binary32.
Open Scope R_scope.

Lemma rnd_odd_between k y : IZR (2 * k) < y < IZR (2 * k + 2) -> Zrnd_odd y = (2 * k + 1)%Z.
Proof.
  intros (H1 & H2). unfold Zrnd_odd.
  destruct (Req_EM_T y (IZR (Zfloor y))) as [E|E].
  - rewrite E in H1, H2. apply lt_IZR in H1, H2. lia.
  - pose proof (Zfloor_lb y) as F1. pose proof (Zfloor_ub y) as F2.
    assert (G1 : (2 * k < Zfloor y + 1)%Z) by (apply lt_IZR; rewrite plus_IZR; lra).
    assert (G2 : (Zfloor y < 2 * k + 2)%Z) by (apply lt_IZR; lra).
    assert (Zfloor y = 2 * k \/ Zfloor y = 2 * k + 1)%Z as [G|G] by lia; rewrite G.
    + rewrite Z.even_mul. cbn [Z.even orb]. rewrite Zceil_floor_neq by lra. lia.
    + rewrite Z.even_add_mul_2 || (replace (Z.even (2 * k + 1)) with false by (rewrite Z.even_add, Z.even_mul; reflexivity)).
      lia.
Qed.

(** the sticky value is the rational rounded to odd at 2^-101 *)
Lemma sticky_odd q :
  let n := (Qnum q * 2 ^ 100)%Z in let d := Zpos (Qden q) in
  Zrnd_odd (Q2R q * bp 101) = (2 * (n / d) + (if n mod d =? 0 then 0 else 1))%Z.
Proof.
  intros n d. assert (Hd : 0 < IZR d) by (apply IZR_lt; reflexivity).
  assert (E : Q2R q * bp 101 = 2 * (IZR n / IZR d)).
  { unfold Q2R, n, d. rewrite mult_IZR. change (bp 101) with (IZR (2 * 2 ^ 100)). rewrite mult_IZR. unfold Rdiv. ring. }
  pose proof (Z.div_mod n d ltac:(discriminate)) as DM. pose proof (Z.mod_pos_bound n d ltac:(reflexivity)) as MB.
  assert (En : IZR n = IZR d * IZR (n / d) + IZR (n mod d)) by (rewrite <- mult_IZR, <- plus_IZR; f_equal; auto).
  assert (Ey : Q2R q * bp 101 = IZR (2 * (n / d)) + 2 * (IZR (n mod d) / IZR d)).
  { rewrite E, En, mult_IZR. field. lra. }
  destruct (Z.eqb_spec (n mod d) 0) as [Z0|NZ].
  - rewrite Ey, Z0. replace (IZR (2 * (n / d)) + 2 * (0 / IZR d)) with (IZR (2 * (n / d))) by (field; lra).
    unfold Zrnd_odd. rewrite Zfloor_IZR. destruct (Req_EM_T _ _); [lia|congruence].
  - apply rnd_odd_between. rewrite Ey. rewrite (plus_IZR (2 * (n / d)) 2).
    assert (Q0 : 0 < IZR (n mod d) / IZR d < 1).
    { split.
      - apply Rdiv_lt_0_compat; auto. apply IZR_lt. lia.
      - apply Rmult_lt_reg_r with (IZR d); auto. unfold Rdiv. rewrite Rmult_assoc, Rinv_l by lra.
        rewrite Rmult_1_r, Rmult_1_l. apply IZR_lt. lia. }
    lra.
Qed.

Section Lit.
Variables (prec emin : Z).
Hypothesis Hp : (1 < prec <= 53)%Z.
Hypothesis He : (emin <= -102)%Z.
Local Instance pp : Prec_gt_0 prec.
Proof. unfold Prec_gt_0. lia. Qed.

Definition fine (e : Z) : Z := Z.min (-101) (FLT_exp emin prec e - 2).
Local Instance fine_valid : Valid_exp fine.
Proof. unfold fine, FLT_exp. intros k. split; [lia|]. intros H. split; [lia|]. intros l Hl. lia. Qed.
Local Instance fine_NE : Exists_NE radix2 fine.
Proof. right. unfold fine, FLT_exp. intros e. split; lia. Qed.
Local Instance flt_NE : Exists_NE radix2 (FLT_exp emin prec).
Proof. right. unfold FLT_exp. intros e. split; lia. Qed.

Lemma sticky_round q : bp (-46) <= Rabs (Q2R q) ->
  let n := (Qnum q * 2 ^ 100)%Z in let d := Zpos (Qden q) in
  round radix2 (FLT_exp emin prec) ZnearestE (F2R (Float radix2 (2 * (n / d) + (if n mod d =? 0 then 0 else 1))%Z (-101)))
  = round radix2 (FLT_exp emin prec) ZnearestE (Q2R q).
Proof.
  intros Hq n d.
  rewrite <- (round_N_odd radix2 eq_refl (FLT_exp emin prec) fine (fun x => negb (Z.even x))
    ltac:(intros e; unfold fine; lia) (Q2R q)).
  f_equal. unfold round. f_equal.
  assert (HM : (-45 <= mag radix2 (Q2R q))%Z) by (apply mag_ge_bpow; exact Hq).
  assert (EC : cexp radix2 fine (Q2R q) = (-101)%Z) by (unfold cexp, fine, FLT_exp; lia).
  rewrite EC. unfold scaled_mantissa. rewrite EC. change (- -101)%Z with 101%Z.
  rewrite sticky_odd. reflexivity.
Qed.
End Lit.

Lemma sticky_bound prec emax : (1 < prec <= 53)%Z -> (127 < emax)%Z -> (3 - emax - prec <= -102)%Z -> forall q,
  bp (-46) <= Rabs (Q2R q) <= bp 100 ->
  Rabs (round radix2 (FLT_exp (3 - emax - prec) prec) ZnearestE (Q2R q)) < bp emax.
Proof.
  intros H1 H2 H3 q (_ & Hq). apply Rle_lt_trans with (bp 100); [|apply bpow_lt; lia].
  assert (Prec_gt_0 prec) by (unfold Prec_gt_0; lia).
  apply abs_round_le_generic; auto with typeclass_instances.
  - apply generic_format_bpow. unfold FLT_exp. lia.
Qed.

Lemma literal_double q : bp (-46) <= Rabs (Q2R q) <= bp 100 ->
  is_finite (f64_of_literal q) = true /\
  B2R (f64_of_literal q) = round radix2 (FLT_exp (-1074) 53) ZnearestE (Q2R q).
Proof.
  intros Hq. unfold f64_of_literal.
  pose proof (binary_normalize_correct 53 1024 eq_refl eq_refl mode_NE
    (2 * (Qnum q * 2 ^ 100 / Z.pos (Qden q)) + (if (Qnum q * 2 ^ 100) mod Z.pos (Qden q) =? 0 then 0 else 1))%Z (-101) false) as N.
  change (SpecFloat.fexp 53 1024) with (FLT_exp (-1074) 53) in N. cbv zeta in N. cbn [round_mode] in N.
  rewrite (sticky_round (53) (-1074) ltac:(lia) ltac:(lia) q (proj1 Hq)) in N.
  rewrite Rlt_bool_true in N by (apply (sticky_bound 53 1024); auto; lia). tauto.
Qed.
Lemma literal_float q : bp (-46) <= Rabs (Q2R q) <= bp 100 ->
  is_finite (f32_of_literal q) = true /\
  B2R (f32_of_literal q) = round radix2 (FLT_exp (-149) 24) ZnearestE (Q2R q).
Proof.
  intros Hq. unfold f32_of_literal.
  pose proof (binary_normalize_correct 24 128 eq_refl eq_refl mode_NE
    (2 * (Qnum q * 2 ^ 100 / Z.pos (Qden q)) + (if (Qnum q * 2 ^ 100) mod Z.pos (Qden q) =? 0 then 0 else 1))%Z (-101) false) as N.
  change (SpecFloat.fexp 24 128) with (FLT_exp (-149) 24) in N. cbv zeta in N. cbn [round_mode] in N.
  rewrite (sticky_round 24 (-149) ltac:(lia) ltac:(lia) q (proj1 Hq)) in N.
  rewrite Rlt_bool_true in N by (apply (sticky_bound 24 128); auto; lia). tauto.
Qed.

(** a double literal that initialises a float is rounded twice *)
Lemma literal_both q : bp (-46) <= Rabs (Q2R q) <= 1 ->
  is_finite (f32_literal q) = true /\
  B2R (f32_literal q) = round radix2 (FLT_exp (-149) 24) ZnearestE (round radix2 (FLT_exp (-1074) 53) ZnearestE (Q2R q)).
Proof.
  intros (H1 & H2).
  assert (H3 : 1 <= bp 100) by (change 1 with (bp 0); apply bpow_le; lia).
  destruct (literal_double q ltac:(lra)) as (F & V).
  assert (B : Rabs (B2R (f64_of_literal q)) <= 2).
  { rewrite V. apply Rle_trans with 1; [|lra].
    apply abs_round_le_generic; auto with typeclass_instances.
    - change 1 with (bp 0). apply generic_format_bpow. unfold FLT_exp. lia. }
  destruct (narrow _ F B) as (N1 & N2). unfold f32_literal. split; [exact N2|]. rewrite N1, V. reflexivity.
Qed.
