(** * P_BinMove: composition of any channels in binary32. *)
Require Import List Bool Arith ZArith QArith Qreals Lia Reals Lra.
Require Import ZifyBool.
Require Import Flocq.Core.Core Flocq.IEEE754.BinarySingleNaN.
Require Import Verif.M_Base Verif.M_Params Verif.M_Padding Verif.M_Wavelet Verif.M_Buffer Verif.M_Real Verif.M_Float Verif.M_Binary32.
Require Import Verif.S_Params Verif.S_Padding Verif.S_Buffer Verif.S_Exact Verif.S_Round Verif.S_Stable.
Require Import Verif.P_Base Verif.P_Wavelet Verif.P_Buffer Verif.P_Impl Verif.P_Api Verif.P_Api2 Verif.P_Denoise.
Require Import Verif.P_Sum Verif.P_Lin Verif.P_PR Verif.P_L2 Verif.P_Rec Verif.P_Exact Verif.P_Rel Verif.P_Round Verif.P_Round2 Verif.P_Round3.
Require Import Verif.P_Float Verif.P_Binary32 Verif.P_Bin2 Verif.P_Bin3.
Require Import Verif.P_Stable Verif.P_Stable2 Verif.P_Dual Verif.P_Dual2 Verif.P_Dual3 Verif.P_Acc.
Import ListNotations.
Open Scope R_scope.

Section P.
Variable p : params.
Hypothesis HA : accepted p.
Notation g := (geom_of p).
Let Gw : gwf g := geom_wf p HA.
Let HR := A32_rounding.
Notation a := (stepg u32 g).
Notation k := (kap u32 eta32 g).
Notation N2 s := (nrm (hs g s) (ws g s)).

Lemma bp_sqrt e E : E <= bp (2 * e) -> sqrt E <= bp e.
Proof.
  intros H. rewrite <- (sqrt_square (bp e)) by (apply Rlt_le, bp_pos). apply sqrt_le_1_alt.
  rewrite <- bpow_plus. replace (e + e)%Z with (2 * e)%Z by lia. auto.
Qed.
Lemma bp_nat n : bp (Z.of_nat n) = 2 ^ n.
Proof. rewrite <- IZR_Zpower by lia. rewrite (pow_IZR 2 n). reflexivity. Qed.

(** growth over n steps *)
Lemma grow n q : (n <= 200)%nat -> (n <= gK g)%nat -> 0 <= q -> a ^ n * (q + INR n * k) <= (101 / 100) * (q + 1).
Proof.
  intros Hn HK Hq. destruct (Nat.eq_dec n 0) as [->|Hn0]; [simpl; lra|].
  pose proof (Ktype p HA ltac:(lia)) as Ht. rewrite (stepg_gain u32 p HA).
  destruct (P_Bin3.gain_pow p HA n Ht) as [L H]. destruct (H ltac:(lia)) as [H1 _].
  pose proof (kap_small p HA Ht) as KS. pose proof (kap_0 u32 eta32 u32_pos eta32_pos g) as K0.
  assert (INR n <= 200). { apply le_INR in Hn. rewrite (INR_IZR_INZ 200) in Hn. exact Hn. }
  pose proof (pos_INR n).
  assert (bp (-76) <= 1 / 1000). { apply Rle_trans with (bp (-10)); [apply bpow_le; lia|]. cbn [bpow]; simpl; lra. }
  assert (0 <= INR n * k <= 1) by nra.
  assert (INR (passes p * n) <= 400).
  { rewrite mult_INR. unfold passes. destruct (is_1d p); simpl (INR 1); simpl (INR 2); lra. }
  apply Rmult_le_compat; try lra.
Qed.

Section Run.
Variable CH : list (mat f32).
Hypothesis HL : has_layout p CH.
Hypothesis HF : Forall all_finite CH.
Hypothesis HE : channel_energy (map values CH) <= 2 ^ 222.
Let ch : decomposition R := map values CH.

Lemma values_sized r c m : sized r c m -> sized r c (values m).
Proof. intros (W & Er & Ec). split; [|split; auto]. unfold mwf, values; cbn [rows cols elts]. rewrite map_length. exact W. Qed.
Lemma values_layout : has_layout p ch.
Proof.
  destruct HL as (H1 & H2 & H3). unfold ch. split; [rewrite map_length; exact H1|]. split.
  - intros s i m Hs Hi E. rewrite nth_error_map in E. destruct (nth_error CH (s * bands p + i)) eqn:E'; inversion E; subst m.
    apply values_sized. eapply H2; eauto.
  - intros m E. rewrite nth_error_map in E. destruct (nth_error CH (nsteps p * bands p)) eqn:E'; inversion E; subst m.
    apply values_sized. apply H3; auto.
Qed.
Lemma chf_vrel n i j : vrel (@chf f32 binary32 CH n i j) (@chf R A32 ch n i j).
Proof.
  unfold chf, ch. change (@mempty R) with (values (@mempty f32)). rewrite map_nth.
  unfold mel, values; cbn [elts cols]. change (@a0 R A32) with (B2R (@a0 f32 binary32)). rewrite map_nth.
  split; auto.
  assert (F : all_finite (nth n CH mempty)).
  { destruct (nth_in_or_default n CH mempty) as [H|H]; [|rewrite H; constructor]. rewrite Forall_forall in HF. auto. }
  unfold all_finite in F. rewrite Forall_forall in F.
  match goal with |- context [nth ?n ?l ?d] => destruct (nth_in_or_default n l d) as [H|H] end; [auto|rewrite H; reflexivity].
Qed.

Let root : R := sqrt (channel_energy ch).
Lemma root_le : 0 <= root <= bp 111.
Proof. split; [apply sqrt_pos|]. apply bp_sqrt. change (2 * 111)%Z with (Z.of_nat 222). rewrite bp_nat. exact HE. Qed.
Lemma en_root it : (it <= gK g)%nat -> sqrt (moved A32 g [] ch it) <= root.
Proof.
  intros Hit. unfold root. rewrite <- (moved_energy u32 eta32 A32 HR g ch).
  - apply sqrt_le_1_alt. apply en_mono; auto.
  - apply (layout_iff p HA). apply values_layout.
Qed.
Lemma over_113 n v : (n <= gK g)%nat -> v <= a ^ n * (root + INR n * k) -> v <= bp 113.
Proof.
  intros Hn H. pose proof (K62 p HA). pose proof root_le as [R0 R1].
  pose proof (grow n root ltac:(lia) Hn R0). assert (bp 113 = 4 * bp 111) by (change 113%Z with (2 + 111)%Z; rewrite bpow_plus; reflexivity).
  assert (4 <= bp 111) by (change 4 with (bp 2); apply bpow_le; lia). lra.
Qed.
Lemma rc_113 it : (it <= gK g)%nat -> N2 (gK g - it) (@rc R A32 g ch it) <= bp 113.
Proof.
  intros Hit. destruct (rc_norm u32 eta32 A32 HR u32_pos eta32_pos g Gw ch it Hit) as [H _].
  apply (over_113 it); auto. eapply Rle_trans; [exact H|].
  pose proof (stepg_1 u32 u32_pos g). apply Rmult_le_compat_l; [apply pow_le; lra|]. apply Rplus_le_compat_r, en_root; auto.
Qed.
Lemma zz_113 it : (it < gK g)%nat -> N2 (gK g - S it) (zz A32 g ch it) <= bp 113.
Proof.
  intros Hit. destruct (rc_norm u32 eta32 A32 HR u32_pos eta32_pos g Gw ch it ltac:(lia)) as [_ H].
  apply (over_113 it); [lia|]. eapply Rle_trans; [apply H; auto|].
  pose proof (stepg_1 u32 u32_pos g). apply Rmult_le_compat_l; [apply pow_le; lra|]. apply Rplus_le_compat_r, en_root; lia.
Qed.

Lemma rcm_rel it : (it <= gK g)%nat -> forall i j, (i < hs g (gK g - it))%nat -> (j < ws g (gK g - it))%nat ->
  vle 113 (@rc f32 binary32 g CH it i j) (@rc R A32 g ch it i j).
Proof.
  induction it; intros Hit i j Hi Hj.
  - split; [cbn [rc]; apply chf_vrel|].
    eapply Rle_trans; [apply (nrm_elem _ _ (@rc R A32 g ch 0) i j Hi Hj)|apply rc_113; lia].
  - split; [|eapply Rle_trans; [apply (nrm_elem _ _ (@rc R A32 g ch (S it)) i j Hi Hj)|apply rc_113; lia]].
    specialize (IHit ltac:(lia)).
    rewrite (rc_zz A32 g Gw ch it i j) by (auto; lia). cbn [rc].
    set (s := (gK g - S it)%nat) in *. assert (Es : (gK g - it = S s)%nat) by (unfold s; lia). rewrite Es in IHit.
    assert (Hs : (s < gK g)%nat) by (unfold s; lia).
    rewrite (@syn_join f32 binary32 g Gw s) by auto.
    refine (proj1 (SYN_rel g Gw s _ _ 113 Hs _ _ i j Hi Hj)); [lia|].
    intros i' j' Hi' Hj'. split.
    + unfold zz. fold s. cbv zeta. pose proof (hs_step g s Gw Hs) as (Hh & _).
      unfold joined. destruct (gdim_cases g Gw) as [E|E].
      * rewrite (ws_1' g s E) in Hj'. rewrite (ws_1' g (S s) E). destruct (Nat.ltb_spec j' 1); [|lia].
        destruct (Nat.ltb_spec i' (hs g (S s))); [|apply chf_vrel].
        apply IHit; auto. rewrite (ws_1' g (S s) E). auto.
      * pose proof (ws_step g s Gw E Hs) as (Hw & _).
        destruct (Nat.ltb_spec i' (hs g (S s))); destruct (Nat.ltb_spec j' (ws g (S s))); try apply chf_vrel.
        apply IHit; auto.
    + eapply Rle_trans; [apply (nrm_elem _ _ (zz A32 g ch it) i' j' Hi' Hj')|apply zz_113; lia].
Qed.

Lemma comm_values : let O := @com_of p f32 binary32 0 CH in
  values O = @com_of p R A32 0 ch /\ all_finite O.
Proof.
  cbv zeta. unfold com_of, scalem. cbn [Nat.ltb Nat.leb]. rewrite Nat.sub_0_r.
  rewrite !(cropfA p HA). apply values_mk. intros i j Hi Hj.
  apply (rcm_rel (gK g)); auto; rewrite Nat.sub_diag.
  - rewrite (hs_level p HA). pose proof (off_fit_r p HA 0). lia.
  - rewrite (ws_level p HA). pose proof (off_fit_c p HA 0). lia.
Qed.
End Run.

(** values of the decomposition *)
Lemma mat_same r c (m m' : mat R) : sized r c m -> sized r c m' ->
  (forall i j, (i < r)%nat -> (j < c)%nat -> mel 0 m i j = mel 0 m' i j) -> m = m'.
Proof.
  intros (W & Er & Ec) (W' & Er' & Ec') H. rewrite (mat_eta 0 m W), (mat_eta 0 m' W'), Er, Ec, Er', Ec'.
  apply mk_ext. auto.
Qed.
Lemma dec_values M : shaped p M -> all_finite M -> padded_energy p (values M) <= 2 ^ 220 ->
  map values (@dec_of p f32 binary32 null_denoiser M) = @dec_of p R A32 null_denoiser (values M).
Proof.
  intros HS HF HE.
  pose proof (dec_of_layout p HA (@null_denoiser f32) M null_keepsA) as LF.
  pose proof (dec_of_layout p HA (@null_denoiser R) (values M) null_keepsA : has_layout p (@dec_of p R A32 null_denoiser (values M))) as LR.
  pose proof (values_layout _ LF) as LV. apply (layout_iff p HA) in LR, LV.
  set (CH := @dec_of p f32 binary32 null_denoiser M) in *. set (cr := @dec_of p R A32 null_denoiser (values M)) in *.
  apply nth_error_ext_eq; [destruct LR as [LR _], LV as [LV _]; congruence|].
  intros n S S' E1 E2. pose proof (lay_all p _ n _ LV E1) as Z1. pose proof (lay_all p _ n _ LR E2) as Z2.
  refine (mat_same _ _ _ _ Z1 Z2 _). intros i j Hi Hj.
  assert (Hlt : (n < gK g * gspw g + 1)%nat) by (destruct LV as [LV _]; rewrite <- LV; apply nth_error_Some; congruence).
  assert (Sp : (0 < gspw g)%nat) by (unfold gspw; destruct (Nat.eqb _ 1); lia).
  assert (B : B2R (@chf f32 binary32 CH n i j) = @chf R A32 cr n i j).
  { destruct (Nat.ltb_spec n (gK g * gspw g)) as [Hn|Hn].
    - pose proof (Nat.div_mod n (gspw g) ltac:(lia)) as DM. pose proof (Nat.mod_upper_bound n (gspw g) ltac:(lia)) as MB.
      assert (Hs : (n / gspw g < gK g)%nat) by (apply Nat.div_lt_upper_bound; lia).
      pose proof (chf_rel p HA M HS HF HE (n / gspw g) (n mod gspw g) i j Hs MB Hi Hj) as [[_ F] _].
      rewrite (Nat.mul_comm (n / gspw g)), <- DM in F. exact F.
    - assert (En : n = (gK g * gspw g)%nat) by lia. rewrite En.
      exact (proj2 (proj1 (chf_rel_a p HA M HS HF HE i j Hi Hj))). }
  unfold chf in B. rewrite (nth_error_nth _ _ mempty E2) in B.
  rewrite nth_error_map in E1. destruct (nth_error CH n) as [m|] eqn:E; inversion E1; subst S.
  rewrite (nth_error_nth _ _ mempty E) in B. change (@a0 R A32) with 0 in B. rewrite <- B.
  unfold mel, values; cbn [elts cols]. change 0 with (B2R (@a0 f32 binary32)). apply map_nth.
Qed.
End P.
