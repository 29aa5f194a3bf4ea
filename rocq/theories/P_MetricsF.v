(** * P_MetricsF: sums of floats in any order. *)
Require Import List Bool Arith ZArith Lia Reals Lra Permutation.
Require Import ZifyBool.
Require Import Flocq.Core.Core Flocq.Prop.Relative Flocq.Prop.Plus_error Flocq.IEEE754.BinarySingleNaN.
Require Import Verif.M_Base Verif.M_Params Verif.M_Buffer Verif.M_Float Verif.M_Binary32 Verif.M_MetricsF.
Require Import Verif.S_MetricsF Verif.P_Float Verif.P_SfFloat Verif.P_Binary32.
Import ListNotations.
Open Scope R_scope.

(** [app g a y x]: y approximates x >= 0 up to the factor g and the amount a *)
Definition app (g a y x : R) : Prop := 0 <= x /\ Rabs (y - x) <= (g - 1) * x + a.

Lemma app_id x : 0 <= x -> app 1 0 x x.
Proof. intros; split; auto. rewrite Rminus_diag_eq, Rabs_R0; auto; lra. Qed.
Lemma app_trans g a h b z y x : 1 <= g -> 1 <= h -> 0 <= a -> app g a y x -> app h b z y -> app (g * h) (h * a + b) z x.
Proof.
  intros Hg Hh Ha [Hx H] [Hy H']. split; auto.
  replace (z - x) with ((z - y) + (y - x)) by ring.
  eapply Rle_trans; [apply Rabs_triang|].
  assert (Hy' : y <= g * x + a) by (apply Rabs_le_inv in H; lra).
  assert ((h - 1) * y <= (h - 1) * (g * x + a)) by (apply Rmult_le_compat_l; lra).
  nra.
Qed.
Lemma app_weak g h a b y x : g <= h -> a <= b -> app g a y x -> app h b y x.
Proof. intros Hg Ha [Hx H]. split; auto. assert ((g - 1) * x <= (h - 1) * x) by (apply Rmult_le_compat_r; lra). lra. Qed.
Lemma app_plus g a b y x y' x' : app g a y x -> app g b y' x' -> app g (a + b) (y + y') (x + x').
Proof.
  intros [Hx H] [Hx' H']. split; [lra|]. replace (y + y' - (x + x')) with ((y - x) + (y' - x')) by ring.
  eapply Rle_trans; [apply Rabs_triang|]. lra.
Qed.
Lemma app_upper g a y x : app g a y x -> y <= g * x + a.
Proof. intros [Hx H]. apply Rabs_le_inv in H. lra. Qed.
Lemma app_div g a y x c : 0 < c -> app g a y x -> app g (a / c) (y / c) (x / c).
Proof.
  intros Hc [Hx H]. assert (I : 0 < / c) by (apply Rinv_0_lt_compat; auto). split; [apply Rmult_le_pos; lra|].
  unfold Rdiv. rewrite <- Rmult_minus_distr_r, Rabs_mult, (Rabs_pos_eq (/ c)) by lra.
  eapply Rle_trans; [apply Rmult_le_compat_r; [lra|exact H]|]. lra.
Qed.

(** powers of 1 + u *)
Lemma growth u k : 0 <= u -> INR k * u <= 1 / 2 -> 1 <= (1 + u) ^ k <= 1 + 2 * (INR k * u).
Proof.
  intros Hu. induction k as [|k IH]; intros Hk; [simpl; lra|].
  rewrite S_INR in *. assert (0 <= INR k) by apply pos_INR.
  destruct IH as [A B]; [nra|]. cbn [pow]. nra.
Qed.
Lemma pow_ge1 u k : 0 <= u -> 1 <= (1 + u) ^ k.
Proof. intros. apply pow_R1_Rle. lra. Qed.
Lemma pow_mono u j k : 0 <= u -> (j <= k)%nat -> (1 + u) ^ j <= (1 + u) ^ k.
Proof. intros. apply Rle_pow; auto. lra. Qed.

Definition rsum (l : list R) : R := fold_right Rplus 0 l.
Lemma rsum_app l r : rsum (l ++ r) = rsum l + rsum r.
Proof. induction l; simpl; [ring|]. unfold rsum in *. rewrite IHl. ring. Qed.
Lemma rsum_perm l l' : Permutation l l' -> rsum l = rsum l'.
Proof. induction 1; simpl; auto; unfold rsum in *; lra. Qed.
Lemma rsum_nonneg l : Forall (fun x => 0 <= x) l -> 0 <= rsum l.
Proof. induction 1; simpl; unfold rsum in *; lra. Qed.

Section Any.
Context (prec emax : Z) (Hp : Prec_gt_0 prec) (He : Prec_lt_emax prec emax).
Notation float := (binary_float prec emax).
Let u : R := bp (- prec).
Let rnd := round radix2 (SpecFloat.fexp prec emax) (round_mode mode_NE).

Lemma u_nonneg : 0 <= u.
Proof. apply Rlt_le, bpow_gt_0. Qed.

(** the sum of two floats, rounded: relative error at most u, always *)
Lemma plus_rel (x y : float) : 0 <= B2R x -> 0 <= B2R y ->
  app (1 + u) 0 (rnd (B2R x + B2R y)) (B2R x + B2R y).
Proof.
  intros X Y. split; [lra|].
  destruct (FLT_plus_error_N_ex radix2 (3 - emax - prec) prec (fun z => negb (Z.even z)) (B2R x) (B2R y)) as (e & B & E).
  { apply generic_format_B2R. }
  { apply generic_format_B2R. }
  change (round radix2 _ _ (B2R x + B2R y)) with (rnd (B2R x + B2R y)) in E. rewrite E.
  replace ((B2R x + B2R y) * (1 + e) - (B2R x + B2R y)) with (e * (B2R x + B2R y)) by ring.
  rewrite Rabs_mult, (Rabs_pos_eq (B2R x + B2R y)) by lra.
  replace (1 + u - 1) with u by ring. rewrite Rplus_0_r. apply Rmult_le_compat_r; [lra|].
  eapply Rle_trans; [exact B|]. unfold u_ro.
  replace (/ 2 * bp (- prec + 1)) with u.
  2: { unfold u. rewrite bpow_plus. simpl. lra. }
  pose proof u_nonneg. apply Rmult_le_reg_r with (1 + u); [lra|]. unfold Rdiv. rewrite Rmult_assoc, Rinv_l by lra. nra.
Qed.

Lemma plus_ok (x y : float) : is_finite x = true -> is_finite y = true -> 0 <= B2R x -> 0 <= B2R y ->
  (B2R x + B2R y) * (1 + u) < bp emax ->
  is_finite (Bplus mode_NE x y) = true /\ B2R (Bplus mode_NE x y) = rnd (B2R x + B2R y) /\ 0 <= rnd (B2R x + B2R y).
Proof.
  intros Fx Fy X Y L. pose proof (plus_rel x y X Y) as A. pose proof (app_upper _ _ _ _ A) as U.
  assert (P : 0 <= rnd (B2R x + B2R y)).
  { unfold rnd. rewrite <- (round_0 radix2 (SpecFloat.fexp prec emax) (round_mode mode_NE)).
    apply round_le; [apply fexp_correct; auto|apply valid_rnd_round_mode|lra]. }
  pose proof (Bplus_correct _ _ _ _ mode_NE x y Fx Fy) as C. fold rnd in C.
  rewrite Rlt_bool_true in C; [tauto|]. rewrite Rabs_pos_eq by auto. lra.
Qed.

Lemma adds_near (l : list float) (s : float) : adds Hp He l s ->
  Forall (fun x : float => is_finite x = true /\ 0 <= B2R x) l ->
  rsum (map (fun x : float => B2R x) l) * (1 + u) ^ length l < bp emax ->
  is_finite s = true /\ 0 <= B2R s /\
  app ((1 + u) ^ Nat.pred (length l)) 0 (B2R s) (rsum (map (fun x : float => B2R x) l)).
Proof.
  pose proof u_nonneg as U.
  induction 1 as [|x|l r a b HA IHA HB IHB|l l' a HP HA IHA]; intros HF HS.
  - simpl in *. repeat split; auto; try lra. rewrite Rminus_0_r, Rabs_R0. lra.
  - inversion HF as [|? ? [F P] _]; subst. repeat split; auto. { simpl. unfold rsum; simpl; lra. }
    unfold rsum; simpl. rewrite Rplus_0_r, Rminus_diag_eq, Rabs_R0 by auto. lra.
  - apply Forall_app in HF. destruct HF as [FL FR].
    rewrite map_app, rsum_app, app_length in HS. rewrite map_app, rsum_app, app_length.
    assert (PL : 0 <= rsum (map (fun x : float => B2R x) l)).
    { apply rsum_nonneg. apply Forall_map. revert FL. apply Forall_impl. tauto. }
    assert (PR : 0 <= rsum (map (fun x : float => B2R x) r)).
    { apply rsum_nonneg. apply Forall_map. revert FR. apply Forall_impl. tauto. }
    set (L := rsum (map _ l)) in *. set (R0 := rsum (map _ r)) in *.
    assert (ML := pow_mono u (length l) (length l + length r) U ltac:(lia)).
    assert (MR := pow_mono u (length r) (length l + length r) U ltac:(lia)).
    pose proof (pow_ge1 u (length l) U). pose proof (pow_ge1 u (length r) U). pose proof (pow_ge1 u (length l + length r) U).
    destruct IHA as (Fa & Pa & Aa); auto. { nra. }
    destruct IHB as (Fb & Pb & Ab); auto. { nra. }
    destruct (length l) as [|nl] eqn:El.
    { destruct l; [|discriminate]. assert (EL : L = 0) by reflexivity.
      assert (Ea : B2R a = 0).
      { destruct Aa as [_ Aa]. rewrite EL in Aa. rewrite Rminus_0_r in Aa. simpl pow in Aa.
        assert (Rabs (B2R a) <= 0) by lra. apply Rabs_le_inv in H2. lra. }
      assert (E : rnd (B2R a + B2R b) = B2R b).
      { rewrite Ea, Rplus_0_l. unfold rnd. apply round_generic; [apply valid_rnd_round_mode|apply generic_format_B2R]. }
      destruct (plus_ok a b Fa Fb Pa Pb) as (F & E' & _).
      { destruct (length r) as [|nr] eqn:Er.
        - destruct r; [|discriminate]. assert (Rz : R0 = 0) by reflexivity.
          pose proof (app_upper _ _ _ _ Ab). rewrite Rz in H2. assert (B2R b = 0) by lra. rewrite Ea, H3, Rplus_0_l, Rmult_0_l. apply bpow_gt_0.
        - pose proof (app_upper _ _ _ _ Ab) as Ub. simpl Nat.pred in Ub. rewrite Ea, Rplus_0_l.
          apply Rle_lt_trans with ((L + R0) * (1 + u) ^ (0 + S nr)); auto. rewrite EL, Rplus_0_l. cbn [Nat.add pow].
          apply Rle_trans with (((1 + u) ^ nr * R0 + 0) * (1 + u)); [apply Rmult_le_compat_r; lra|]. lra. }
      rewrite E', E, EL, Rplus_0_l. cbn [Nat.add]. auto. }
    destruct (length r) as [|nr] eqn:Er.
    { destruct r; [|discriminate]. assert (EL : R0 = 0) by reflexivity.
      assert (Ea : B2R b = 0).
      { destruct Ab as [_ Ab]. rewrite EL in Ab. rewrite Rminus_0_r in Ab. simpl pow in Ab.
        assert (Rabs (B2R b) <= 0) by lra. apply Rabs_le_inv in H2. lra. }
      assert (E : rnd (B2R a + B2R b) = B2R a).
      { rewrite Ea, Rplus_0_r. unfold rnd. apply round_generic; [apply valid_rnd_round_mode|apply generic_format_B2R]. }
      destruct (plus_ok a b Fa Fb Pa Pb) as (F & E' & _).
      { pose proof (app_upper _ _ _ _ Aa) as Ub. simpl Nat.pred in Ub. rewrite Ea, Rplus_0_r.
        apply Rle_lt_trans with ((L + R0) * (1 + u) ^ (S nl + 0)); auto. rewrite EL, Rplus_0_r, Nat.add_0_r. cbn [pow].
        apply Rle_trans with (((1 + u) ^ nl * L + 0) * (1 + u)); [apply Rmult_le_compat_r; lra|]. lra. }
      rewrite E', E, EL, Rplus_0_r, Nat.add_0_r. auto. }
    simpl Nat.pred in *.
    assert (Aa' : app ((1 + u) ^ (nl + nr)) 0 (B2R a) L) by (eapply app_weak; [| |exact Aa]; [apply pow_mono; auto; lia|lra]).
    assert (Ab' : app ((1 + u) ^ (nl + nr)) 0 (B2R b) R0) by (eapply app_weak; [| |exact Ab]; [apply pow_mono; auto; lia|lra]).
    pose proof (app_plus _ _ _ _ _ _ _ Aa' Ab') as AS.
    assert (UP : (B2R a + B2R b) * (1 + u) < bp emax).
    { apply app_upper in AS. eapply Rle_lt_trans; [|exact HS].
      apply Rle_trans with (((1 + u) ^ (nl + nr) * (L + R0)) * (1 + u)); [apply Rmult_le_compat_r; lra|].
      replace ((1 + u) ^ (nl + nr) * (L + R0) * (1 + u)) with ((L + R0) * (1 + u) ^ S (nl + nr)) by (cbn [pow]; ring).
      apply Rmult_le_compat_l; [lra|]. apply pow_mono; auto; lia. }
    destruct (plus_ok a b Fa Fb Pa Pb UP) as (F & E & P).
    split; [auto|]. split; [rewrite E; auto|]. rewrite E.
    assert (G1 : 1 <= 1 + u) by lra. assert (G2 : 0 <= 0 + 0) by lra.
    pose proof (app_trans _ _ _ _ _ _ _ (pow_ge1 u (nl + nr) U) G1 G2 AS (plus_rel a b Pa Pb)) as T.
    eapply app_weak; [| |exact T]; [|lra].
    replace ((1 + u) ^ (nl + nr) * (1 + u)) with ((1 + u) ^ S (nl + nr)) by (cbn [pow]; ring).
    apply pow_mono; auto; lia.
  - rewrite (rsum_perm (map _ l') (map (fun x : float => B2R x) l)), <- (Permutation_length HP) in *
      by (apply Permutation_map, Permutation_sym; auto).
    apply IHA; auto. eapply Permutation_Forall; [apply Permutation_sym; exact HP|auto].
Qed.
End Any.
