(** * P_MetricsF6: energies of a buffer, distance zero, and sums that exist. *)
Require Import List Bool Arith ZArith Lia Reals Lra Permutation.
Require Import ZifyBool.
Require Import Flocq.Core.Core Flocq.Prop.Relative Flocq.Prop.Plus_error Flocq.IEEE754.BinarySingleNaN.
Require Import Verif.M_Base Verif.M_Params Verif.M_Buffer Verif.M_Float Verif.M_Binary32 Verif.M_Metrics Verif.M_MetricsF.
Require Import Verif.S_Params Verif.S_Buffer Verif.S_Exact Verif.S_Metrics Verif.S_MetricsF Verif.P_Base Verif.P_Buffer Verif.P_Api2 Verif.P_Float Verif.P_SfFloat Verif.P_Binary32 Verif.P_Preview3.
Require Import Verif.P_Metrics Verif.P_MetricsF Verif.P_MetricsF2 Verif.P_MetricsF3 Verif.P_MetricsF4 Verif.P_MetricsF5.
Import ListNotations.
Open Scope R_scope.

(** ** energies *)
Lemma energy_fold (m : mat f32) :
  fold_right (fun (x : f32) s => B2R x * B2R x + s) 0 (elts m) = energy (real_mat m).
Proof. rewrite energy_real. induction (elts m); simpl; auto. rewrite IHl. reflexivity. Qed.

Lemma subband_close sum m : summation64 sum -> finite_mat m -> (Z.of_nat (length (elts m)) <= 2 ^ 27)%Z ->
  energy_close (subband_energy32 sum m) m.
Proof.
  intros HS HF HN. unfold energy_close. rewrite energy_fold. cbv zeta.
  destruct (energy32_range sum m HS HF HN) as [A B]. split; [exact A|]. split; [|exact B].
  intros HE. destruct (energy32_close sum m HS HF HN HE) as (C & _ & D). split; [exact C|exact D].
Qed.

Lemma energies32_ok sum (b : buffer f32) : summation64 sum -> finite_buffer b ->
  Forall (fun m => (Z.of_nat (length (elts m)) <= 2 ^ 27)%Z) (subbands b) ->
  (no_elements b -> energy_distribution32 sum b = []) /\
  (~ no_elements b -> Forall2 (Forall2 energy_close) (energy_distribution32 sum b) (bdec b)).
Proof.
  intros HS HF HN. unfold energy_distribution32. split.
  - intros H. apply is_empty_iff in H. rewrite H. reflexivity.
  - intros H. destruct (is_empty b) eqn:Eb; [exfalso; apply H, is_empty_iff; auto|].
    unfold finite_buffer, subbands in *. clear H Eb. induction (bdec b) as [|ch d IH]; [constructor|].
    cbn [map concat] in *. inversion HF; subst. apply Forall_app in HN. destruct HN as [HN1 HN2]. constructor; auto.
    clear - HS H1 HN1. induction ch as [|m ch IH]; [constructor|]. inversion H1; inversion HN1; subst.
    constructor; auto. apply subband_close; auto.
Qed.

(** ** zero *)
Definition zero32 (x : f32) : Prop := is_finite x = true /\ B2R x = 0.
Definition zero64 (x : f64) : Prop := is_finite x = true /\ B2R x = 0.

Lemma sum_zero (l : list f32) s : adds prec32 emax32 l s -> Forall zero32 l -> zero32 s.
Proof.
  intros HA HF.
  assert (E : rsum (map (fun x : f32 => B2R x) l) = 0).
  { clear HA. induction HF as [|x l [_ Hx] _ IH]; [reflexivity|]. unfold rsum in *; cbn [map fold_right]. rewrite Hx, IH. ring. }
  destruct (adds_near 24 128 _ _ l s HA) as (F & P & A).
  { revert HF. apply Forall_impl. intros x [Fx Ex]. rewrite Ex. split; auto. apply Rle_refl. }
  { change (rsum (map (fun x : binary_float 24 128 => B2R x) l)) with (rsum (map (fun x : f32 => B2R x) l)).
    rewrite E, Rmult_0_l. apply bpow_gt_0. }
  change (rsum (map (fun x : binary_float 24 128 => B2R x) l)) with (rsum (map (fun x : f32 => B2R x) l)) in A.
  rewrite E in A. apply app_upper in A. split; auto. lra.
Qed.

Lemma term_zero sum square (a b : mat f32) : summation32 sum -> good_square square ->
  Forall (fun u : f32 * f32 => zero32 (sq32 (Bminus mode_NE (fst u) (snd u)))) (combine (elts b) (elts a)) ->
  zero64 (term32 sum square (a, b)).
Proof.
  intros HS HQ HF. unfold term32, mnorm32, diff32. cbn [fst snd elts]. rewrite map_map.
  change (fun x : f32 * f32 => Bmult mode_NE (Bminus mode_NE (fst x) (snd x)) (Bminus mode_NE (fst x) (snd x)))
    with (fun u : f32 * f32 => sq32 (Bminus mode_NE (fst u) (snd u))).
  set (q := map (fun u : f32 * f32 => sq32 (Bminus mode_NE (fst u) (snd u))) (combine (elts b) (elts a))).
  assert (Z : zero32 (sum q)). { apply (sum_zero q); [apply HS|]. unfold q. apply Forall_map. exact HF. }
  set (s := sum q) in *. destruct Z as [F E]. destruct (sqrt_rel s F) as [F2 R2]; [rewrite E; apply Rle_refl|].
  rewrite E, sqrt_0, Rabs_R0, Rmult_0_r, Rminus_0_r in R2.
  assert (E2 : B2R (Bsqrt mode_NE s) = 0) by (apply Rabs_le_inv in R2; lra).
  destruct (HQ _ F2) as [F3 R3]. rewrite E2, !Rmult_0_r, Rminus_0_r in R3. split; [exact F3|]. apply Rabs_le_inv in R3.
  change (B2R (square (f64_of_f32 (Bsqrt mode_NE s))) = 0). lra.
Qed.

Lemma plus_zero (x y : f64) : zero64 x -> zero64 y -> zero64 (Bplus mode_NE x y).
Proof.
  intros [Fx Ex] [Fy Ey]. pose proof (Bplus_correct 53 1024 _ _ mode_NE x y Fx Fy) as C.
  rewrite Ex, Ey, Rplus_0_r, round_0 in C by apply valid_rnd_round_mode.
  rewrite Rabs_R0, Rlt_bool_true in C by apply bpow_gt_0. split; tauto.
Qed.

Lemma distance_zero sum square b1 b2 : summation32 sum -> good_square square ->
  comparable (bpar b1) (bpar b2) -> small_shape (bpar b1) -> same_sizes32 b1 b2 ->
  Forall (fun u : mat f32 * mat f32 => Forall (fun v : f32 * f32 => zero32 (sq32 (Bminus mode_NE (fst v) (snd v))))
    (combine (elts (snd u)) (elts (fst u)))) (combine (subbands b1) (subbands b2)) ->
  exists d, distance32 sum square b1 b2 = Ok d /\ zero32 d.
Proof.
  intros HS HQ (C1 & C2 & C3) HP HZ HF.
  destruct (samples_ok (bpar b1) HP) as [SR SE].
  unfold distance32. rewrite <- C1, <- C2, <- C3, Z.eqb_refl, Z.sub_diag, list_Z_eqb_refl.
  cbn [andb guard bind]. change (to_size 0) with 0%Z. cbn [Z.eqb].
  rewrite (calc32 sum square b1 b2 HZ). cbn [bind]. rewrite SE. eexists. split; [reflexivity|].
  set (ret := fold_left _ _ _).
  assert (Z : zero64 ret).
  { unfold ret. clear ret. assert (Z0 : zero64 (f64_of_int 0)) by (destruct (val_int64 0 ltac:(lia)); split; auto).
    revert Z0 HF. generalize (f64_of_int 0), (combine (subbands b1) (subbands b2)). intros z l; revert z.
    induction l as [|[a b] l IH]; intros z Hz HF; cbn [fold_left]; auto. inversion HF; subst. apply IH; auto.
    apply plus_zero; auto. apply term_zero; auto. }
  destruct Z as [F E]. destruct (samples64 _ SR) as (Fy & _ & Y1). set (y := f64_of_int (samples (bpar b1))) in *.
  pose proof (Bdiv_correct 53 1024 _ _ mode_NE ret y ltac:(lra)) as C.
  rewrite E in C. unfold Rdiv in C. rewrite Rmult_0_l, round_0 in C by apply valid_rnd_round_mode.
  rewrite Rabs_R0, Rlt_bool_true in C by apply bpow_gt_0. destruct C as (V & FF & _). rewrite F in FF.
  destruct (narrow_big _ FF) as [W FW]. { rewrite V, Rabs_R0. apply Rlt_le, bp_pos. }
  split; auto. rewrite W, V. apply r32_0.
Qed.

Lemma minus_self (x : f32) : is_finite x = true -> zero32 (sq32 (Bminus mode_NE x x)).
Proof.
  intros F. pose proof (Bminus_correct 24 128 _ _ mode_NE x x F F) as C.
  rewrite Rminus_diag_eq, round_0 in C by (auto; apply valid_rnd_round_mode).
  rewrite Rabs_R0, Rlt_bool_true in C by apply bpow_gt_0. destruct C as (V & FF & _).
  pose proof (Bmult_correct 24 128 _ _ mode_NE (Bminus mode_NE x x) (Bminus mode_NE x x)) as C.
  rewrite V, Rmult_0_r, round_0 in C by apply valid_rnd_round_mode.
  rewrite Rabs_R0, Rlt_bool_true in C by apply bpow_gt_0. destruct C as (W & FW & _). rewrite FF in FW. split; auto.
Qed.

Lemma distance_self sum square b : summation32 sum -> good_square square ->
  small_shape (bpar b) -> finite_buffer b -> Forall (Forall mwf) (bdec b) ->
  exists d, distance32 sum square b b = Ok d /\ zero32 d.
Proof.
  intros HS HQ HP HF HW. apply distance_zero; auto.
  - repeat split.
  - unfold same_sizes32. clear HF HP. induction HW as [|ch d Hc Hd IH]; constructor; auto.
    clear - Hc. induction Hc; constructor; auto.
  - assert (G : Forall finite_mat (subbands b)).
    { unfold finite_buffer, subbands in *. clear HW HP. induction HF; cbn [concat]; [constructor|]. apply Forall_app; auto. }
    revert G. generalize (subbands b). induction 1 as [|m l Hm Hl IH]; cbn [combine]; constructor; auto.
    cbn [fst snd]. clear - Hm. unfold finite_mat in Hm. induction Hm; cbn [combine]; constructor; auto. cbn [fst snd]. apply minus_self; auto.
Qed.

(** ** sums and squares of this kind exist *)
Definition running32 (l : list f32) : f32 := fold_left (fun s x => Bplus mode_NE s x) l (B754_zero false).
Definition running64 (l : list f64) : f64 := fold_left (fun s x => Bplus mode_NE s x) l (B754_zero false).
Lemma running32_ok : summation32 running32.
Proof.
  intros l. unfold running32. rewrite <- (rev_involutive l). induction (rev l) as [|x r IH]; cbn [rev]; [constructor|].
  rewrite fold_left_app. cbn [fold_left]. apply adds_two; auto. constructor.
Qed.
Lemma running64_ok : summation64 running64.
Proof.
  intros l. unfold running64. rewrite <- (rev_involutive l). induction (rev l) as [|x r IH]; cbn [rev]; [constructor|].
  rewrite fold_left_app. cbn [fold_left]. apply adds_two; auto. constructor.
Qed.
Lemma product_ok : good_square (fun x => Bmult mode_NE x x).
Proof.
  intros x F. destruct (square64_val x F) as [V FF]. rewrite V, FF. split; auto. rewrite Rminus_diag_eq, Rabs_R0 by auto.
  apply Rmult_le_pos; [apply Rlt_le, bp_pos|apply Rle_0_sqr].
Qed.

Lemma distance32_nan sum square b1 b2 : signum (bpar b1) = signum (bpar b2) -> shape (bpar b1) = shape (bpar b2) ->
  params_rep (bpar b1) -> params_rep (bpar b2) -> steps (bpar b1) <> steps (bpar b2) ->
  distance32 sum square b1 b2 = Ok B754_nan.
Proof.
  intros H1 H2 P1 P2 H3. unfold distance32. rewrite H1, H2, Z.eqb_refl, list_Z_eqb_refl. cbn [andb guard bind].
  replace (to_size _ =? 0)%Z with false; [reflexivity|]. symmetry. apply Z.eqb_neq. unfold to_size.
  assert (0 <= steps (bpar b1) < 2 ^ 64)%Z by apply P1. assert (0 <= steps (bpar b2) < 2 ^ 64)%Z by apply P2.
  intros E. apply Z.mod_divide in E; [|lia]. destruct E as (k & E). nia.
Qed.
