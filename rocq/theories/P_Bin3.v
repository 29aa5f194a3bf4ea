(** * P_Bin3: a decomposition and composition in binary32. *)
Require Import List Bool Arith ZArith QArith Qreals Lia Reals Lra.
Require Import ZifyBool.
Require Import Flocq.Core.Core Flocq.IEEE754.BinarySingleNaN.
Require Import Verif.M_Base Verif.M_Params Verif.M_Padding Verif.M_Wavelet Verif.M_Buffer Verif.M_Real Verif.M_Float Verif.M_Binary32.
Require Import Verif.S_Params Verif.S_Padding Verif.S_Buffer Verif.S_Exact Verif.S_Round.
Require Import Verif.P_Base Verif.P_Wavelet Verif.P_Buffer Verif.P_Impl Verif.P_Api Verif.P_Api2.
Require Import Verif.P_Sum Verif.P_Lin Verif.P_PR Verif.P_L2 Verif.P_Rec Verif.P_Exact Verif.P_Rel Verif.P_Round Verif.P_Round2 Verif.P_Round3.
Require Import Verif.P_Float Verif.P_Binary32 Verif.P_Bin2.
Import ListNotations.
Open Scope R_scope.

(** ** numbers *)
Definition upass : R := 37 / 10 ^ 7.

Lemma u_pow n : (n <= 24)%nat -> (1 + u32) ^ n - 1 <= 1431 / 10 ^ 9.
Proof.
  intros Hn. assert (U : u32 = / 16777216) by reflexivity.
  apply Rle_trans with ((1 + u32) ^ 24 - 1).
  - assert ((1 + u32) ^ n <= (1 + u32) ^ 24); [|lra]. apply Rle_pow; [rewrite U; lra|auto].
  - eapply Rle_trans; [apply (pow_bound u32 24 (14306 / 10 ^ 10))|]; rewrite ?U; simpl (INR 24); lra.
Qed.

Lemma pass_small t : (1 <= t <= 10)%Z -> 1 <= pass_gain u32 t <= 1 + upass.
Proof.
  intros Ht. unfold pass_gain, upass.
  assert (D : 0 <= Q2R (filter_defect t) <= Q2R (11 # 100000000000) /\ 0 <= Q2R (coefficient_sum t) <= Q2R (17895 # 10000)).
  { revert t Ht. apply Z10_cases. intros t Hin. simpl in Hin.
    repeat (destruct Hin as [<-|Hin]; [repeat split;
      try (rewrite <- RMicromega.Q2R_0); apply Qle_Rle; unfold Qle; simpl; lia|]). destruct Hin. }
  destruct D as [D1 D2].
  assert (E1 : Q2R (11 # 100000000000) = 11 / 10 ^ 11) by (unfold Q2R; simpl; lra).
  assert (E2 : Q2R (17895 # 10000) = 17895 / 10 ^ 4) by (unfold Q2R; simpl; lra).
  rewrite E1 in D1. rewrite E2 in D2.
  pose proof sqrt2_bounds as S2.
  pose proof (u_pow (2 * Z.to_nat t + 4) ltac:(lia)) as U.
  pose proof (pow_ge_1 (1 + u32) (2 * Z.to_nat t + 4) ltac:(pose proof u32_pos; lra)) as U1.
  set (w := (1 + u32) ^ (2 * Z.to_nat t + 4) - 1) in *.
  assert (Hw : 0 <= w) by (unfold w; lra).
  assert (P : 0 <= sqrt 2 * Q2R (coefficient_sum t) <= 2542 / 1000).
  { split; [apply Rmult_le_pos; lra|]. apply Rle_trans with (142 / 100 * (17895 / 10 ^ 4)); [apply Rmult_le_compat; lra|lra]. }
  assert (Q : 0 <= sqrt 2 * Q2R (coefficient_sum t) * w <= 2542 / 1000 * (1431 / 10 ^ 9)).
  { split; [apply Rmult_le_pos; lra|apply Rmult_le_compat; lra]. }
  lra.
Qed.

Section P.
Variable p : params.
Hypothesis HA : accepted p.
Notation g := (geom_of p).
Let Gw : gwf g := geom_wf p HA.

Lemma Ktype : (0 < gK g)%nat -> wtype p <> 0%Z.
Proof. intros H E. apply (acc_none p HA) in E. rewrite (K_nsteps p HA) in H. unfold nsteps in H. lia. Qed.
Lemma K62 : (gK g <= 62)%nat.
Proof.
  destruct (Nat.eq_dec (gK g) 0) as [->|H]; [lia|]. rewrite (K_nsteps p HA). apply (steps_62 p HA). apply Ktype. lia.
Qed.
Lemma type_range : wtype p <> 0%Z -> (1 <= wtype p <= 10)%Z.
Proof. pose proof (acc_type p HA). lia. Qed.

Lemma gain_pow n : wtype p <> 0%Z -> 1 <= step_gain u32 p ^ n /\
  ((n <= 248)%nat -> step_gain u32 p ^ n <= 1 + INR (passes p * n) * (3708 / 10 ^ 9) /\ step_gain u32 p ^ n <= 2).
Proof.
  intros Ht. destruct (pass_small (wtype p) (type_range Ht)) as [L H]. unfold step_gain. rewrite <- pow_mult.
  split; [apply pow_ge_1; auto|]. intros Hn.
  assert (Hm : (passes p * n <= 496)%nat) by (unfold passes; destruct (is_1d p); lia).
  set (m := (passes p * n)%nat) in *. apply le_INR in Hm. rewrite (INR_IZR_INZ 496) in Hm. simpl (IZR _) in Hm.
  pose proof (pos_INR m) as Hm0.
  assert (H1 : pass_gain u32 (wtype p) ^ m <= (1 + upass) ^ m) by (apply pow_incr; lra).
  pose proof (pow_bound upass m (INR m * upass) ltac:(unfold upass; lra) (Rle_refl _) ltac:(unfold upass; lra)) as B.
  assert (H2 : INR m * upass / (1 - INR m * upass) <= INR m * (3708 / 10 ^ 9)).
  { unfold Rdiv at 1. rewrite Rmult_assoc. apply Rmult_le_compat_l; auto. unfold upass in *.
    apply (Rmult_le_reg_r (1 - INR m * (37 / 10 ^ 7))); [lra|]. rewrite Rmult_assoc, Rinv_l by lra. nra. }
  split; [lra|]. apply Rle_trans with (1 + INR m * (3708 / 10 ^ 9)); lra.
Qed.

Lemma side_bound n : In n (shape p) -> (0 <= pside p n < 2 ^ 64)%Z.
Proof.
  intros Hin. destruct (pside_facts p HA n Hin) as (H1 & H2 & H3).
  assert (Hn : (n < 2 ^ 63)%Z). { pose proof HA as HA'; destruct HA' as (_ & _ & _ & Hb). rewrite Forall_forall in Hb. auto. }
  split; [lia|]. destruct (Z.eq_dec (wtype p) 0) as [E|E].
  - unfold pside. rewrite E. cbn [Z.eqb]. lia.
  - destruct (H3 E) as (_ & _ & H4). pose proof (acc_fit p HA E) as F. rewrite Forall_forall in F. specialize (F n Hin).
    pose proof (type_range E). assert (0 <= 2 ^ steps p)%Z by (apply Z.pow_nonneg; lia). nia.
Qed.
Lemma area_bound : sqrt (INR (hs g 0 * ws g 0)) <= bp 64.
Proof.
  assert (B : (Z.of_nat (hs g 0) <= 2 ^ 64)%Z /\ (Z.of_nat (ws g 0) <= 2 ^ 64)%Z).
  { rewrite hs_0, (ws_0 g Gw). pose proof side_bound as SB. unfold geom_of.
    destruct (acc_cases p HA) as [(n & E & _)|(w & h & E & _)]; rewrite E in *; cbn [gh gw].
    - specialize (SB n (or_introl eq_refl)). lia.
    - pose proof (SB w (or_introl eq_refl)). pose proof (SB h (or_intror (or_introl eq_refl))). lia. }
  destruct B as [B1 B2]. rewrite INR_IZR_INZ, Nat2Z.inj_mul, mult_IZR.
  rewrite <- (sqrt_square (bp 64)) by (apply Rlt_le, bp_pos). apply sqrt_le_1_alt.
  assert (E : bp 64 = IZR (2 ^ 64)) by reflexivity. rewrite E.
  apply Rmult_le_compat; try (apply IZR_le; lia).
Qed.
Lemma kap_small : wtype p <> 0%Z -> kap u32 eta32 g <= bp (-76).
Proof.
  intros Ht. unfold kap, kap1, nu. rewrite (stepg_gain u32 p HA).
  pose proof (type_range Ht) as Tr. rewrite <- (geom_t p HA).
  destruct (gain_pow 1 Ht) as [L H]. destruct (H ltac:(lia)) as [_ H2]. rewrite pow_1 in *.
  assert (N : 0 <= INR (np g) <= 2). { split; [apply pos_INR|]. unfold np. destruct (Nat.eqb _ 1); simpl; lra. }
  set (k := (2 * Z.to_nat (wtype p))%nat).
  assert (Hk : (k <= 20)%nat) by (unfold k; lia).
  assert (U1 : 0 <= (1 + u32) ^ k <= 2).
  { split; [apply pow_le; pose proof u32_pos; lra|]. pose proof (u_pow k ltac:(lia)). lra. }
  assert (IK : 0 <= INR k <= 20). { split; [apply pos_INR|]. apply le_INR in Hk. simpl in Hk. lra. }
  pose proof area_bound as AB. pose proof (sqrt_pos (INR (hs g 0 * ws g 0))) as A0.
  pose proof eta32_pos as E0.
  assert (P1 : 0 <= 2 * INR k * (1 + u32) ^ k * eta32 <= 80 * eta32).
  { assert (0 <= INR k * (1 + u32) ^ k <= 40) by nra. split.
    - apply Rmult_le_pos; auto. nra.
    - apply Rmult_le_compat_r; auto. nra. }
  assert (P2 : 0 <= sqrt (INR (hs g 0 * ws g 0)) * (2 * INR k * (1 + u32) ^ k * eta32) <= bp 64 * (80 * eta32)).
  { split; [apply Rmult_le_pos; lra|apply Rmult_le_compat; lra]. }
  assert (P3 : 0 <= INR (np g) * step_gain u32 p <= 4) by nra.
  apply Rle_trans with (4 * (bp 64 * (80 * eta32))); [apply Rmult_le_compat; lra|].
  unfold eta32. replace (4 * (bp 64 * (80 * bp (-150)))) with (320 * (bp 64 * bp (-150))) by ring.
  rewrite <- bpow_plus. apply Rle_trans with (bp 10 * bp (64 + -150)); [|rewrite <- bpow_plus; apply Rle_refl].
  apply Rmult_le_compat_r; [apply Rlt_le, bp_pos|]. change (bp 10) with 1024. lra.
Qed.

(** ** values of the levels *)
Notation N2 s := (nrm (hs g s) (ws g s)).
Section Run.
Variable M : mat f32.
Hypothesis HS : shaped p M.
Hypothesis HF : all_finite M.
Hypothesis HE : padded_energy p (values M) <= 2 ^ 220.
Let m := values M.
Let X := @padf p f32 binary32 M.
Let x := @padf p R A32 m.
Notation a := (stepg u32 g).
Notation k := (kap u32 eta32 g).
Let HR := A32_rounding.

Lemma norm_0 : N2 0 x <= bp 110.
Proof.
  assert (E : N2 0 x = sqrt (padded_energy p m)).
  { rewrite <- (padded_nrm p HA m) by (destruct HS as (_ & _ & C); exact C).
    apply nrm_ext. intros. cbn [ap]. apply (padf_R u32 eta32 A32 HR). }
  rewrite E. rewrite <- (sqrt_square (bp 110)) by (apply Rlt_le, bp_pos). apply sqrt_le_1_alt.
  eapply Rle_trans; [exact HE|]. apply Req_le. rewrite <- bpow_plus. 
  change (110 + 110)%Z with (Z.of_nat 220). rewrite <- (IZR_Zpower radix2 (Z.of_nat 220)) by lia.
  rewrite (pow_IZR 2 220). reflexivity.
Qed.

Lemma a_1 : 1 <= a. Proof. apply (stepg_1 u32 u32_pos). Qed.
Lemma k_0 : 0 <= k. Proof. apply (kap_0 u32 eta32 u32_pos eta32_pos). Qed.

Lemma ap_norm s : (s <= gK g)%nat -> N2 s (@ap R A32 g x s) <= a ^ s * (bp 110 + INR s * k).
Proof.
  induction s; intros Hs.
  - cbn [ap INR pow]. pose proof norm_0. lra.
  - specialize (IHs ltac:(lia)).
    pose proof (apA_nrm u32 eta32 A32 HR u32_pos eta32_pos g Gw x s ltac:(lia)) as H.
    pose proof a_1. pose proof k_0. rewrite S_INR. cbn [pow].
    pose proof (pow_ge_1 a s ltac:(lra)).
    apply Rle_trans with (a * (a ^ s * (bp 110 + INR s * k)) + k).
    + eapply Rle_trans; [exact H|]. apply Rplus_le_compat_r, Rmult_le_compat_l; lra.
    + assert (1 <= a * a ^ s) by nra. assert (k <= a * a ^ s * k) by nra. 
      replace (a * a ^ s * (bp 110 + (INR s + 1) * k)) with (a * (a ^ s * (bp 110 + INR s * k)) + a * a ^ s * k) by ring. lra.
Qed.

(** all the factors together *)
Lemma big n : (0 < gK g)%nat -> (n <= 200)%nat -> a ^ n * (bp 110 + INR n * k) <= bp 112 - 1.
Proof.
  intros HK Hn. pose proof (Ktype HK) as Ht. rewrite (stepg_gain u32 p HA).
  destruct (gain_pow n Ht) as [L H]. destruct (H ltac:(lia)) as [_ H2].
  pose proof (kap_small Ht) as KS. pose proof k_0 as K0.
  assert (INR n <= 200). { apply le_INR in Hn. rewrite (INR_IZR_INZ 200) in Hn. exact Hn. }
  pose proof (pos_INR n).
  assert (bp (-76) <= 1 / 1000). { apply Rle_trans with (bp (-10)); [apply bpow_le; lia|]. cbn [bpow]; simpl; lra. }
  assert (0 <= INR n * k <= 1) by nra.
  assert (B112 : bp 112 = 4 * bp 110) by (change 112%Z with (2 + 110)%Z; rewrite bpow_plus; reflexivity).
  assert (4 <= bp 110) by (change 4 with (bp 2); apply bpow_le; lia).
  apply Rle_trans with (2 * (bp 110 + 1)); [apply Rmult_le_compat; lra|lra].
Qed.
Lemma a_mono n n' : (n <= n')%nat -> a ^ n * (bp 110 + INR n * k) <= a ^ n' * (bp 110 + INR n' * k).
Proof.
  intros H. pose proof a_1. pose proof k_0. apply Rmult_le_compat.
  - apply pow_le; lra.
  - pose proof (bp_pos 110). pose proof (pos_INR n). nra.
  - apply Rle_pow; auto.
  - apply le_INR in H. nra.
Qed.

Lemma ap_112 s : (s <= gK g)%nat -> N2 s (@ap R A32 g x s) <= bp 112.
Proof.
  intros Hs. destruct (Nat.eq_dec (gK g) 0) as [E|E].
  - replace s with 0%nat by lia. eapply Rle_trans; [apply norm_0|apply bpow_le; lia].
  - pose proof K62. eapply Rle_trans; [apply ap_norm; auto|].
    pose proof (big s ltac:(lia) ltac:(lia)). lra.
Qed.
Lemma ana_112 s : (s < gK g)%nat -> N2 s (@ANA R A32 g s (@ap R A32 g x s)) <= bp 112.
Proof.
  intros Hs. eapply Rle_trans; [apply (ANA_nrm u32 eta32 A32 HR u32_pos eta32_pos g Gw); auto|].
  pose proof (ap_norm s ltac:(lia)) as N. pose proof a_1. pose proof k_0. pose proof K62.
  pose proof (big s ltac:(lia) ltac:(lia)) as B1. pose proof (big (S s) ltac:(lia) ltac:(lia)) as B2.
  rewrite S_INR in B2. cbn [pow] in B2. pose proof (pow_ge_1 a s ltac:(lra)).
  assert (a * N2 s (@ap R A32 g x s) <= a * (a ^ s * (bp 110 + INR s * k))) by (apply Rmult_le_compat_l; lra).
  assert (1 <= a * a ^ s) by nra. assert (k <= a * a ^ s * k) by nra. 
  replace (a * a ^ s * (bp 110 + (INR s + 1) * k)) with (a * (a ^ s * (bp 110 + INR s * k)) + a * a ^ s * k) in B2 by ring. lra.
Qed.

(** ** agreement *)
Lemma pad_rel i j : vrel (X i j) (x i j).
Proof.
  unfold X, x, padf, mel, m, values; cbn [elts cols].
  change (@a0 R A32) with (B2R (@a0 f32 binary32)). rewrite map_nth. split; auto.
  unfold all_finite in HF. rewrite Forall_forall in HF.
  match goal with |- context [nth ?n ?l ?d] => destruct (nth_in_or_default n l d) as [H|H] end; [auto|rewrite H; reflexivity].
Qed.
Lemma ap_rel s : (s <= gK g)%nat -> forall i j, (i < hs g s)%nat -> (j < ws g s)%nat ->
  vle 112 (@ap f32 binary32 g X s i j) (@ap R A32 g x s i j).
Proof.
  induction s; intros Hs i j Hi Hj.
  - split; [apply pad_rel|]. eapply Rle_trans; [apply (nrm_elem _ _ (@ap R A32 g x 0) i j Hi Hj)|apply ap_112; lia].
  - split; [|eapply Rle_trans; [apply (nrm_elem _ _ (@ap R A32 g x (S s)) i j Hi Hj)|apply ap_112; lia]].
    rewrite (@ana_low f32 binary32 g X s i j) by (auto; lia). rewrite (@ana_low R A32 g x s i j) by (auto; lia).
    pose proof (level_le g Gw s ltac:(lia)).
    refine (proj1 (ANA_rel g Gw s _ _ 112 _ _ (IHs _) i j _ _)); lia.
Qed.
Lemma ana_rel s : (s < gK g)%nat -> forall i j, (i < hs g s)%nat -> (j < ws g s)%nat ->
  vle 112 (@ANA f32 binary32 g s (@ap f32 binary32 g X s) i j) (@ANA R A32 g s (@ap R A32 g x s) i j).
Proof.
  intros Hs i j Hi Hj. split.
  - refine (proj1 (ANA_rel g Gw s _ _ 112 _ _ (ap_rel s _) i j _ _)); lia.
  - eapply Rle_trans; [apply (nrm_elem _ _ (@ANA R A32 g s (@ap R A32 g x s)) i j Hi Hj)|apply ana_112; lia].
Qed.

Let CH := @dec_of p f32 binary32 null_denoiser M.
Let ch := @dec_of p R A32 null_denoiser m.

Lemma off_lt s b i j : (s < gK g)%nat -> (b < gspw g)%nat -> (i < hs g (S s))%nat -> (j < ws g (S s))%nat ->
  (offr b (hs g (S s)) i < hs g s)%nat /\ (gdim g = 2%nat -> (offc b (ws g (S s)) j < ws g s)%nat) /\ (gdim g = 1%nat -> b = 0%nat).
Proof.
  intros Hs Hb Hi Hj. pose proof (hs_step g s Gw Hs) as (Hh & _). unfold offr, offc, gspw in *.
  repeat split.
  - destruct (Nat.eqb b 1); lia.
  - intros E. pose proof (ws_step g s Gw E Hs) as (Hw & _). destruct (Nat.eqb b 0); lia.
  - intros E. rewrite E in Hb. cbn [Nat.eqb] in Hb. lia.
Qed.
Lemma chf_rel s b i j : (s < gK g)%nat -> (b < gspw g)%nat -> (i < hs g (S s))%nat -> (j < ws g (S s))%nat ->
  vle 112 (@chf f32 binary32 CH (s * gspw g + b) i j) (@chf R A32 ch (s * gspw g + b) i j).
Proof.
  intros Hs Hb Hi Hj.
  destruct (nth_error (@detf f32 binary32 g X s) b) as [D|] eqn:ED.
  2:{ apply nth_error_None in ED. rewrite detf_length in ED. lia. }
  destruct (nth_error (@detf R A32 g x s) b) as [d|] eqn:Ed.
  2:{ apply nth_error_None in Ed. rewrite detf_length in Ed. lia. }
  unfold CH, ch. rewrite (@chf_detail f32 binary32 p M s b D i j Hs ED Hi Hj), (@chf_detail R A32 p m s b d i j Hs Ed Hi Hj).
  rewrite (@ana_det f32 binary32 g Gw X s b i j D Hs ED), (@ana_det R A32 g Gw x s b i j d Hs Ed).
  destruct (off_lt s b i j Hs Hb Hi Hj) as (O1 & O2 & O3).
  apply ana_rel; auto. destruct (gdim_cases g Gw) as [E|E]; auto.
  rewrite (O3 E). unfold offc; cbn [Nat.eqb]. rewrite (ws_1' g s E). rewrite (ws_1' g (S s) E) in Hj. auto.
Qed.
Lemma chf_rel_a i j : (i < hs g (gK g))%nat -> (j < ws g (gK g))%nat ->
  vle 112 (@chf f32 binary32 CH (gK g * gspw g) i j) (@chf R A32 ch (gK g * gspw g) i j).
Proof.
  intros Hi Hj. unfold CH, ch. rewrite (@chf_approx f32 binary32 p M i j Hi Hj), (@chf_approx R A32 p m i j Hi Hj).
  apply ap_rel; auto.
Qed.

Lemma rc_112 it : (it <= gK g)%nat -> N2 (gK g - it) (@rc R A32 g ch it) <= bp 112.
Proof.
  intros Hit. destruct (Nat.eq_dec (gK g) 0) as [E|E].
  { replace it with 0%nat by lia. rewrite Nat.sub_0_r. cbn [rc].
    rewrite (nrm_ext _ _ _ (@ap R A32 g x (gK g))) by (intros; apply (@chf_approx R A32 p m); auto). apply ap_112; auto. }
  eapply Rle_trans; [apply (nrm_minus _ _ _ (@ap R A32 g x (gK g - it)))|].
  pose proof (rec_errA u32 eta32 A32 HR u32_pos eta32_pos g Gw ch x it (dec_holdsA A32 p m) Hit) as H.
  pose proof (ap_norm (gK g - it) ltac:(lia)) as N.
  set (n := N2 (gK g - it) (@ap R A32 g x (gK g - it))) in *.
  pose proof a_1. pose proof k_0. pose proof K62.
  pose proof (pow_ge_1 a (2 * it) ltac:(lra)) as A1.
  pose proof (big (2 * it + (gK g - it)) ltac:(lia) ltac:(lia)) as B.
  apply Rle_trans with (a ^ (2 * it) * (n + INR (2 * it) * k)).
  { rewrite mult_INR. simpl (INR 2). lra. }
  apply Rle_trans with (a ^ (2 * it + (gK g - it)) * (bp 110 + INR (2 * it + (gK g - it)) * k)); [|lra].
  rewrite pow_add, plus_INR, Rmult_assoc. apply Rmult_le_compat_l; [lra|].
  pose proof (pow_ge_1 a (gK g - it) ltac:(lra)) as A2. pose proof (pos_INR (2 * it)).
  assert (INR (2 * it) * k <= a ^ (gK g - it) * (INR (2 * it) * k)).
  { rewrite <- (Rmult_1_l (INR (2 * it) * k)) at 1. apply Rmult_le_compat_r; auto. apply Rmult_le_pos; auto. }
  lra.
Qed.

Lemma rc_rel it : (it <= gK g)%nat -> forall i j, (i < hs g (gK g - it))%nat -> (j < ws g (gK g - it))%nat ->
  vle 112 (@rc f32 binary32 g CH it i j) (@rc R A32 g ch it i j).
Proof.
  induction it; intros Hit i j Hi Hj.
  - rewrite Nat.sub_0_r in *. cbn [rc]. apply chf_rel_a; auto.
  - split; [|eapply Rle_trans; [apply (nrm_elem _ _ (@rc R A32 g ch (S it)) i j Hi Hj)|apply rc_112; lia]].
    specialize (IHit ltac:(lia)). cbn [rc].
    set (s := (gK g - S it)%nat) in *. assert (Es : (gK g - it = S s)%nat) by (unfold s; lia). rewrite Es in IHit.
    assert (Hs : (s < gK g)%nat) by (unfold s; lia).
    rewrite (@syn_join f32 binary32 g Gw s) by auto. rewrite (@syn_join R A32 g Gw s) by auto.
    refine (proj1 (SYN_rel g Gw s _ _ 112 Hs _ _ i j Hi Hj)); [lia|].
    intros i' j' Hi' Hj'. pose proof (hs_step g s Gw Hs) as (Hh & _).
    assert (D : forall b i j, (b < gspw g)%nat -> (i < hs g (S s))%nat -> (j < ws g (S s))%nat ->
       vle 112 (@chf f32 binary32 CH (s * gspw g + b) i j) (@chf R A32 ch (s * gspw g + b) i j))
      by (intros; apply chf_rel; auto).
    unfold joined. destruct (gdim_cases g Gw) as [E|E].
    + rewrite (ws_1' g s E) in Hj'. rewrite (ws_1' g (S s) E). destruct (Nat.ltb_spec j' 1); [|lia].
      destruct (Nat.ltb_spec i' (hs g (S s))).
      * apply IHit; auto. rewrite (ws_1' g (S s) E). auto.
      * apply D; [unfold gspw; rewrite E; simpl; lia|lia|rewrite (ws_1' g (S s) E); auto].
    + pose proof (ws_step g s Gw E Hs) as (Hw & _).
      assert (Hsp : gspw g = 3%nat) by (unfold gspw; rewrite E; reflexivity).
      destruct (Nat.ltb_spec i' (hs g (S s))); destruct (Nat.ltb_spec j' (ws g (S s))).
      * apply IHit; auto.
      * apply D; lia.
      * apply D; lia.
      * apply D; lia.
Qed.

(** ** the result *)
Lemma values_mk r c (f : nat -> nat -> f32) (h : nat -> nat -> R) :
  (forall i j, (i < r)%nat -> (j < c)%nat -> vrel (f i j) (h i j)) ->
  values (mk r c f) = mk r c h /\ all_finite (mk r c f).
Proof.
  intros H. unfold values, mk, all_finite; cbn [rows cols elts].
  assert (I : forall k, In k (seq 0 (r * c)) -> (k / c < r)%nat /\ (k mod c < c)%nat).
  { intros k Hk. apply in_seq in Hk. destruct c as [|c]; [lia|].
    split; [apply Nat.div_lt_upper_bound; lia|apply Nat.mod_upper_bound; lia]. }
  split.
  - f_equal. rewrite map_map. apply map_ext_in. intros k Hk. apply I in Hk as [H1 H2]. apply H; auto.
  - apply Forall_forall. intros v Hv. apply in_map_iff in Hv as (k & <- & Hk). apply I in Hk as [H1 H2]. apply H; auto.
Qed.

Lemma com_values : let O := @com_of p f32 binary32 0 CH in
  values O = @com_of p R A32 0 ch /\ all_finite O.
Proof.
  cbv zeta. unfold com_of, scalem. cbn [Nat.ltb Nat.leb]. rewrite Nat.sub_0_r.
  rewrite !(cropfA p HA). apply values_mk. intros i j Hi Hj.
  apply (rc_rel (gK g)); auto; rewrite Nat.sub_diag.
  - rewrite (hs_level p HA). pose proof (off_fit_r p HA 0). lia.
  - rewrite (ws_level p HA). pose proof (off_fit_c p HA 0). lia.
Qed.

Lemma subbands_finite : Forall all_finite CH.
Proof.
  apply Forall_forall. intros S HinS. apply In_nth_error in HinS as (n & Hn).
  pose proof (dec_of_layout p HA (@null_denoiser f32) M null_keepsA) as LY. fold CH in LY.
  apply (layout_iff p HA) in LY. destruct LY as (L1 & L2 & L3).
  assert (Hlt : (n < gK g * gspw g + 1)%nat) by (rewrite <- L1; apply nth_error_Some; congruence).
  assert (Sp : (0 < gspw g)%nat) by (unfold gspw; destruct (Nat.eqb _ 1); lia).
  assert (ETA : forall (A : mat f32) h w, mwf A -> rows A = h -> cols A = w ->
     (forall i j, (i < h)%nat -> (j < w)%nat -> is_finite (mel (@a0 f32 binary32) A i j) = true) -> all_finite A).
  { intros A h w W Rh Cw H. rewrite (mat_eta (@a0 f32 binary32) A W), Rh, Cw.
    apply (values_mk h w _ (fun i j => B2R (mel (@a0 f32 binary32) A i j))). intros i j Hi Hj. split; auto. }
  destruct (Nat.eq_dec n (gK g * gspw g)) as [->|Hne].
  - specialize (L3 S Hn). apply (ETA S (hs g (gK g)) (ws g (gK g))); try apply L3.
    intros i j Hi Hj. pose proof (chf_rel_a i j Hi Hj) as [[F _] _]. unfold chf in F.
    rewrite (nth_error_nth _ _ mempty Hn) in F. exact F.
  - pose proof (Nat.div_mod n (gspw g) ltac:(lia)) as DM. pose proof (Nat.mod_upper_bound n (gspw g) ltac:(lia)) as MB.
    set (s := (n / gspw g)%nat) in *. set (b := (n mod gspw g)%nat) in *.
    assert (Hs : (s < gK g)%nat) by (apply Nat.div_lt_upper_bound; lia).
    assert (En : n = (s * gspw g + b)%nat) by lia. rewrite En in Hn.
    specialize (L2 s b S Hs MB Hn). apply (ETA S (hs g (Datatypes.S s)) (ws g (Datatypes.S s))); try apply L2.
    intros i j Hi Hj. pose proof (chf_rel s b i j Hs MB Hi Hj) as [[F _] _]. unfold chf in F.
    rewrite (nth_error_nth _ _ mempty Hn) in F. exact F.
Qed.
End Run.

Theorem binary32_error b data : @reachable f32 binary32 p b ->
  (1 <= signum p)%Z -> Z.of_nat (length data) = signum p -> Forall (shaped p) data ->
  Forall all_finite data -> Forall (fun m => padded_energy p (values m) <= 2 ^ 220) data ->
  exists b' out, @decompose f32 binary32 b data null_denoiser = Ok (true, b') /\
    @compose f32 binary32 b' 0 = Ok (true, out) /\ length out = length data /\
    Forall (Forall all_finite) (bdec b') /\
    forall c m o, nth_error data c = Some m -> nth_error out c = Some o ->
      sized (drows p) (dcols p) o /\ all_finite o /\
      sqrt (total (drows p) (fun i => total (dcols p) (fun j =>
              (at_ (values o) i j - at_ (values m) i j) * (at_ (values o) i j - at_ (values m) i j))))
        <= float_rel u32 p * sqrt (padded_energy p (values m)) + underflow u32 eta32 p.
Proof.
  intros Hr Hsig HL HS HF HE. eexists _, _. split; [apply (@dec_okA f32 binary32 p HA b data); auto|].
  split; [apply (@com_okA f32 binary32 p HA data 0); auto; lia|].
  rewrite map_length. split; auto. rewrite Forall_forall in HS, HF, HE. split.
  - cbn [bdec]. apply Forall_forall. intros ch Hin. apply in_map_iff in Hin as (m & <- & Hm). apply subbands_finite; auto.
  - intros c m o Hm Ho. apply nth_error_In in Hm as Hin.
    rewrite nth_error_map, Hm in Ho. inversion Ho; subst o; clear Ho.
    destruct (com_values m (HS m Hin) (HF m Hin) (HE m Hin)) as [V F].
    split; [|split; [exact F|]].
    + unfold com_of, scalem. cbn [Nat.ltb Nat.leb]. rewrite (cropfA p HA), crows_0, ccols_0.
      split; [apply mk_wf|]. auto.
    + rewrite V. apply (com_errA u32 eta32 A32 A32_rounding u32_pos eta32_pos p HA).
      destruct (HS m Hin) as (W & Rm & Cm). split; [|split; auto].
      unfold mwf, values; cbn [rows cols elts]. rewrite map_length. exact W.
Qed.

Theorem float_bounds :
  float_rel u32 p <= INR (passes p * nsteps p) * (75 / 10 ^ 7) /\
  underflow u32 eta32 p <= INR (nsteps p) / 2 ^ 74.
Proof.
  destruct (Z.eq_dec (wtype p) 0) as [E0|Ht].
  { apply (acc_none p HA) in E0. unfold float_rel, underflow, nsteps. rewrite E0. simpl Z.to_nat.
    rewrite Nat.mul_0_r, (Nat.mul_0_r (passes p)). simpl (INR 0). unfold Rdiv. rewrite !Rmult_0_l, Rmult_0_r, !Rmult_0_l. simpl. lra. }
  pose proof K62 as K. rewrite (K_nsteps p HA) in K.
  destruct (gain_pow (2 * nsteps p) Ht) as [L H]. destruct (H ltac:(lia)) as [H1 H2]. split.
  - unfold float_rel. rewrite !mult_INR in *. simpl (INR 2) in H1. 
    pose proof (pos_INR (passes p)). pose proof (pos_INR (nsteps p)). nra.
  - rewrite (underflow_kap u32 eta32 p HA). rewrite (stepg_gain u32 p HA), (K_nsteps p HA).
    pose proof (kap_small Ht) as KS. pose proof k_0 as K0. pose proof (pos_INR (nsteps p)) as I0.
    assert (E : / 2 ^ 74 = 4 * bp (-76)).
    { change 4 with (bp 2). rewrite <- bpow_plus. change (2 + -76)%Z with (- Z.of_nat 74)%Z. rewrite bpow_opp, <- IZR_Zpower by lia.
      rewrite (pow_IZR 2 74). reflexivity. }
    unfold Rdiv. rewrite E.
    replace (INR (nsteps p) * (4 * bp (-76))) with (2 * INR (nsteps p) * 2 * bp (-76)) by ring.
    apply Rmult_le_compat; auto.
    + apply Rmult_le_pos; [lra|]. lra.
    + apply Rmult_le_compat_l; lra.
Qed.

(** ** bounded samples *)
Lemma energy_bound m B : shaped p m -> 0 <= B -> Forall (fun v => Rabs v <= B) (elts m) ->
  sqrt (padded_energy p m) <= sqrt (INR (level_rows p 0 * level_cols p 0)) * B.
Proof.
  intros (W & Rm & Cm) HB H. rewrite <- (padded_nrm p HA m Cm). rewrite (hs_level p HA), (ws_level p HA).
  apply nrm_bound; auto. intros i j _ _. cbn [ap]. unfold padf, mel.
  match goal with |- context [nth ?n ?l ?d] => destruct (nth_in_or_default n l d) as [H'|H'] end.
  - rewrite Forall_forall in H. auto.
  - rewrite H'. change (@a0 R exactR) with 0. rewrite Rabs_R0. auto.
Qed.
Theorem binary32_samples B b data : @reachable f32 binary32 p b ->
  (1 <= signum p)%Z -> Z.of_nat (length data) = signum p -> Forall (shaped p) data -> B <= 2 ^ 46 ->
  Forall (fun m => Forall (fun x : f32 => is_finite x = true /\ Rabs (B2R x) <= B) (elts m)) data ->
  exists b' out, @decompose f32 binary32 b data null_denoiser = Ok (true, b') /\
    @compose f32 binary32 b' 0 = Ok (true, out) /\ length out = length data /\
    forall c m o, nth_error data c = Some m -> nth_error out c = Some o ->
      sized (drows p) (dcols p) o /\ all_finite o /\
      forall i j, (i < drows p)%nat -> (j < dcols p)%nat ->
        Rabs (at_ (values o) i j - at_ (values m) i j) <=
        INR (passes p * nsteps p) * (75 / 10 ^ 7) * (sqrt (INR (level_rows p 0 * level_cols p 0)) * B) + INR (nsteps p) / 2 ^ 74.
Proof.
  intros Hr Hsig HL HS HB HD.
  assert (SV : forall m : mat f32, shaped p m -> shaped p (values m)).
  { intros m (W & Rm & Cm). split; [|split; auto]. unfold mwf, values; cbn [rows cols elts]. rewrite map_length. exact W. }
  assert (EN : forall m, In m data -> sqrt (padded_energy p (values m)) <= sqrt (INR (level_rows p 0 * level_cols p 0)) * Rmax B 0 /\
     (elts m <> [] -> 0 <= B)).
  { intros m Hm. rewrite Forall_forall in HS, HD. split.
    - apply energy_bound; auto; [apply Rmax_r|]. unfold values; cbn [elts]. apply Forall_forall. intros v Hv.
      apply in_map_iff in Hv as (y & <- & Hy). specialize (HD m Hm). rewrite Forall_forall in HD.
      eapply Rle_trans; [apply (HD y Hy)|apply Rmax_l].
    - intros He. specialize (HD m Hm). destruct (elts m) as [|y l]; [congruence|].
      inversion HD as [|? ? [_ H] _]; subst. eapply Rle_trans; [apply Rabs_pos|exact H]. }
  destruct (binary32_error b data Hr Hsig HL HS) as (b' & out & D & C & L & _ & H).
  - apply Forall_forall. intros m Hm. rewrite Forall_forall in HD. specialize (HD m Hm).
    unfold all_finite. eapply Forall_impl; [|exact HD]. intros y [Hy _]. exact Hy.
  - apply Forall_forall. intros m Hm. destruct (EN m Hm) as [E _].
    assert (E0 : 0 <= padded_energy p (values m)).
    { unfold padded_energy. apply rsum_nonneg. intros. apply rsum_nonneg. intros. apply Rle_0_sqr. }
    apply Rle_trans with (sqrt (padded_energy p (values m)) * sqrt (padded_energy p (values m))); [rewrite sqrt_sqrt by auto; lra|].
    pose proof area_bound as AB. rewrite (hs_level p HA), (ws_level p HA) in AB.
    assert (MB : 0 <= Rmax B 0 <= bp 46).
    { split; [apply Rmax_r|]. apply Rmax_lub; [|apply Rlt_le, bp_pos].
      eapply Rle_trans; [exact HB|]. apply Req_le. rewrite (pow_IZR 2 46). reflexivity. }
    assert (sqrt (padded_energy p (values m)) <= bp 110).
    { eapply Rle_trans; [exact E|]. change 110%Z with (64 + 46)%Z. rewrite bpow_plus.
      apply Rmult_le_compat; auto; try apply sqrt_pos; apply MB. }
    apply Rle_trans with (bp 110 * bp 110); [apply Rmult_le_compat; auto using sqrt_pos|].
    rewrite <- bpow_plus. apply Req_le. change (110 + 110)%Z with (Z.of_nat 220). rewrite <- (IZR_Zpower radix2 (Z.of_nat 220)) by lia.
    rewrite (pow_IZR 2 220). reflexivity.
  - exists b', out. split; [auto|split; [auto|split; [auto|]]]. intros c m o Hm Ho.
    destruct (H c m o Hm Ho) as (H1 & H2 & H3). split; [auto|split; [auto|]]. intros i j Hi Hj.
    apply nth_error_In in Hm as Hin. destruct (EN m Hin) as [E EB].
    assert (B0 : 0 <= B).
    { apply EB. rewrite Forall_forall in HS. destruct (HS m Hin) as (W & Rm & Cm). intros E0. unfold mwf in W.
      rewrite E0, Rm, Cm in W. simpl in W. nia. }
    rewrite Rmax_left in E by auto.
    destruct float_bounds as [F1 F2].
    apply Rle_trans with (float_rel u32 p * sqrt (padded_energy p (values m)) + underflow u32 eta32 p).
    + eapply Rle_trans; [|exact H3].
      exact (nrm_elem (drows p) (dcols p) (fun i j => at_ (values o) i j - at_ (values m) i j) i j Hi Hj).
    + apply Rplus_le_compat; auto. apply Rle_trans with (INR (passes p * nsteps p) * (75 / 10 ^ 7) * sqrt (padded_energy p (values m))).
      * apply Rmult_le_compat_r; auto. apply sqrt_pos.
      * apply Rmult_le_compat_l; auto. apply Rmult_le_pos; [apply pos_INR|lra].
Qed.
End P.
