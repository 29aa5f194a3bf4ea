(** * P_BinMove2: the API in binary32: moved coefficients, denoisers, accuracy, energy. *)
Require Import List Bool Arith ZArith QArith Qreals Lia Reals Lra.
Require Import ZifyBool.
Require Import Flocq.Core.Core Flocq.IEEE754.BinarySingleNaN.
Require Import Verif.M_Base Verif.M_Params Verif.M_Padding Verif.M_Wavelet Verif.M_Buffer Verif.M_Real Verif.M_Float Verif.M_Binary32 Verif.M_Denoise.
Require Import Verif.S_Params Verif.S_Padding Verif.S_Buffer Verif.S_Exact Verif.S_Round Verif.S_Stable Verif.S_Denoise.
Require Import Verif.P_Base Verif.P_Wavelet Verif.P_Buffer Verif.P_Impl Verif.P_Api Verif.P_Api2 Verif.P_Denoise.
Require Import Verif.P_Sum Verif.P_Lin Verif.P_PR Verif.P_L2 Verif.P_Rec Verif.P_Exact Verif.P_Rel Verif.P_Round Verif.P_Round2 Verif.P_Round3.
Require Import Verif.P_Float Verif.P_Binary32 Verif.P_Bin2 Verif.P_Bin3.
Require Import Verif.P_Stable Verif.P_Stable2 Verif.P_Dual Verif.P_Dual2 Verif.P_Dual3 Verif.P_Acc Verif.P_BinMove.
Import ListNotations.
Open Scope R_scope.

(** ** keeping and zeroing *)
Lemma values_elts m : elts (values m) = map (@B2R 24 128) (elts m). Proof. reflexivity. Qed.
Lemma kept_refl l : kept l l.
Proof. induction l; constructor; auto. Qed.
Lemma kept_finite l l' : kept l l' -> Forall (fun x : f32 => is_finite x = true) l -> Forall (fun x : f32 => is_finite x = true) l'.
Proof.
  intros H. induction H as [|x y l l' H _ IH]; intros F; constructor; inversion F; subst; auto.
  destruct H as [->| ->]; auto.
Qed.
Lemma kept_energy m m' : kept (elts m) (elts m') -> energy (values m') <= energy (values m).
Proof.
  unfold energy. rewrite !values_elts. intros H. induction H as [|x y l l' H _ IH]; [apply Rle_refl|].
  cbn [map fold_right]. apply Rplus_le_compat; auto.
  destruct H as [->| ->]; [lra|]. cbn [B2R]. pose proof (Rle_0_sqr (B2R x)). unfold Rsqr in *. lra.
Qed.
Lemma kept_energies (ch0 ch1 : list (mat f32)) : Forall2 (fun m m' => kept (elts m) (elts m')) ch0 ch1 ->
  channel_energy (map values ch1) <= channel_energy (map values ch0).
Proof.
  intros H. induction H as [|x y l l' H _ IH]; [apply Rle_refl|].
  cbn [map channel_energy fold_right]. apply Rplus_le_compat; auto. apply kept_energy; auto.
Qed.

Section P.
Variable p : params.
Hypothesis HA : accepted p.
Notation g := (geom_of p).
Let HR := A32_rounding.
Notation err := (fun m => float_rel u32 p * sqrt (padded_energy p (values m)) + underflow u32 eta32 p).

Lemma shaped_values m : shaped p m -> shaped p (values m).
Proof. apply values_sized. Qed.

(** energy of what is stored *)
Lemma energy_222 m : shaped p m -> all_finite m -> padded_energy p (values m) <= 2 ^ 220 ->
  channel_energy (map values (@dec_of p f32 binary32 null_denoiser m)) <= 2 ^ 222.
Proof.
  intros HS HF HE. rewrite (dec_values p HA m HS HF HE).
  pose proof (dec_energy u32 eta32 A32 HR u32_pos eta32_pos p HA (values m) (shaped_values m HS)) as H.
  assert (R0 : sqrt (padded_energy p (values m)) <= bp 110).
  { apply bp_sqrt. change (2 * 110)%Z with (Z.of_nat 220). rewrite bp_nat. exact HE. }
  assert (S : sqrt (channel_energy (@dec_of p R A32 null_denoiser (values m))) <= bp 111).
  { eapply Rle_trans; [exact H|].
    destruct (float_bounds p HA) as [_ U]. pose proof (K62 p HA) as K. rewrite (K_nsteps p HA) in K.
    assert (U1 : underflow u32 eta32 p <= 1).
    { eapply Rle_trans; [exact U|]. apply le_INR in K. rewrite (INR_IZR_INZ 62) in K. change (Z.of_nat 62) with 62%Z in K.
      assert (62 <= 2 ^ 74). { rewrite <- bp_nat. apply Rle_trans with (bp 6); [cbn [bpow]; simpl; lra|apply bpow_le; lia]. }
      apply (Rmult_le_reg_r (2 ^ 74)); [apply pow_lt; lra|]. unfold Rdiv. rewrite Rmult_assoc, Rinv_l, Rmult_1_r, Rmult_1_l by (apply pow_nonzero; lra). lra. }
    assert (P : step_gain u32 p ^ nsteps p <= 101 / 100).
    { destruct (Z.eq_dec (wtype p) 0) as [E0|Ht].
      - apply (acc_none p HA) in E0. unfold nsteps. rewrite E0. simpl. lra.
      - destruct (P_Bin3.gain_pow p HA (nsteps p) Ht) as [_ G]. destruct (G ltac:(lia)) as [G1 _].
        eapply Rle_trans; [exact G1|]. apply le_INR in K. rewrite (INR_IZR_INZ 62) in K. change (Z.of_nat 62) with 62%Z in K. pose proof (pos_INR (nsteps p)).
        rewrite mult_INR. unfold passes. destruct (is_1d p); simpl (INR 1); simpl (INR 2); lra. }
    pose proof (sqrt_pos (padded_energy p (values m))).
    assert (step_gain u32 p ^ nsteps p * sqrt (padded_energy p (values m)) <= 101 / 100 * bp 110).
    { eapply Rle_trans; [apply Rmult_le_compat_r; [auto|exact P]|]. lra. }
    assert (bp 111 = 2 * bp 110) by (change 111%Z with (1 + 110)%Z; rewrite bpow_plus; reflexivity).
    assert (4 <= bp 110) by (change 4 with (bp 2); apply bpow_le; lia). lra. }
  change 222%nat with (111 + 111)%nat. rewrite pow_add. change (2 ^ 111) with (2 ^ 111). rewrite <- bp_nat. change (Z.of_nat 111) with 111%Z.
  assert (C0 : 0 <= channel_energy (@dec_of p R A32 null_denoiser (values m))).
  { clear. induction (@dec_of p R A32 null_denoiser (values m)) as [|x l IH]; [apply Rle_refl|]. cbn [channel_energy fold_right].
    apply Rplus_le_le_0_compat; auto. unfold energy. induction (elts x); [apply Rle_refl|]. cbn [fold_right].
    pose proof (Rle_0_sqr a). unfold Rsqr in *. lra. }
  rewrite <- (sqrt_sqrt (channel_energy _) C0). apply Rmult_le_compat; auto; apply sqrt_pos.
Qed.

Lemma com32_sized (ch : list (mat f32)) : sized (drows p) (dcols p) (@com_of p f32 binary32 0 ch).
Proof.
  unfold com_of, scalem. cbn [Nat.ltb Nat.leb]. rewrite (cropfA p HA), crows_0, ccols_0.
  split; [apply mk_wf|]. auto.
Qed.

Lemma com32_error m (ch : list (mat f32)) : shaped p m -> all_finite m -> padded_energy p (values m) <= 2 ^ 220 ->
  has_layout p ch -> Forall all_finite ch -> channel_energy (map values ch) <= 2 ^ 222 ->
  let o := @com_of p f32 binary32 0 ch in
  all_finite o /\
  error p (values o) (values m) <= err m + step_gain u32 p ^ nsteps p * 
     sqrt (distance2 (map values (@dec_of p f32 binary32 null_denoiser m)) (map values ch)).
Proof.
  intros HS HF HE HL HFc HEc o. destruct (comm_values p HA ch HL HFc HEc) as [V F]. split; [exact F|].
  unfold o. rewrite V, (dec_values p HA m HS HF HE).
  apply (com_moved u32 eta32 A32 HR u32_pos eta32_pos p HA).
  - apply shaped_values; auto.
  - apply values_layout; auto.
Qed.

(** any channels *)
Theorem moved_binary32 b data (chs : list (decomposition f32)) : @reachable f32 binary32 p b ->
  (1 <= signum p)%Z -> Z.of_nat (length data) = signum p -> Forall (shaped p) data ->
  Forall all_finite data -> Forall (fun m => padded_energy p (values m) <= 2 ^ 220) data ->
  length chs = length data -> Forall (has_layout p) chs -> Forall (Forall all_finite) chs ->
  Forall (fun ch => channel_energy (map values ch) <= 2 ^ 222) chs ->
  exists b0 out, @decompose f32 binary32 b data null_denoiser = Ok (true, b0) /\
    @compose f32 binary32 (Buffer p chs) 0 = Ok (true, out) /\ length out = length data /\
    forall c m ch0 ch o, nth_error data c = Some m -> nth_error (bdec b0) c = Some ch0 -> nth_error chs c = Some ch ->
      nth_error out c = Some o ->
      sized (drows p) (dcols p) o /\ all_finite o /\
      error p (values o) (values m) <= err m
        + step_gain u32 p ^ nsteps p * sqrt (distance2 (map values ch0) (map values ch)).
Proof.
  intros Hr Hsig HL HS HF HE HLc HLay HFc HEc. eexists _, _. split; [apply (@dec_okA f32 binary32 p HA b data); auto|].
  split.
  { apply (compose_ok p HA); cbn [bpar bdec].
    - reflexivity.
    - exact (eq_trans (f_equal Z.of_nat HLc) HL).
    - apply Forall_forall. auto.
    - pose proof (acc_steps p HA). lia. }
  rewrite map_length. cbn [bdec]. split; auto. intros c m ch0 ch o Hm Hc0 Hc Ho.
  rewrite nth_error_map, Hc in Ho. inversion Ho; subst o; clear Ho.
  rewrite nth_error_map, Hm in Hc0. inversion Hc0; subst ch0; clear Hc0.
  apply nth_error_In in Hm. apply nth_error_In in Hc. rewrite Forall_forall in HS, HF, HE, HLay, HFc, HEc.
  split; [apply com32_sized|]. apply com32_error; auto.
Qed.

(** ** denoisers that keep or zero *)
Lemma denoised_kept den m : keeps_shape den -> keeps_or_zeroes den -> shaped p m -> all_finite m -> padded_energy p (values m) <= 2 ^ 220 ->
  Forall2 (fun d d' => kept (elts d) (elts d')) (@dec_of p f32 binary32 null_denoiser m) (@dec_of p f32 binary32 den m).
Proof.
  intros HK [K1 K2] HS HF HE.
  pose proof (subbands_finite p HA m HS HF HE) as FIN.
  destruct (den_details (A := binary32) p m den HA) as (D1 & D2).
  pose proof (dec_of_layout p HA (@null_denoiser f32) m null_keepsA : has_layout p (@dec_of p f32 binary32 null_denoiser m)) as L0.
  pose proof (dec_of_layout p HA den m HK : has_layout p (@dec_of p f32 binary32 den m)) as L1.
  set (ch0 := @dec_of p f32 binary32 null_denoiser m) in *. set (ch1 := @dec_of p f32 binary32 den m) in *.
  assert (Q : forall (l l' : list (mat f32)), length l = length l' ->
    (forall k d d', nth_error l k = Some d -> nth_error l' k = Some d' -> kept (elts d) (elts d')) -> Forall2 (fun d d' => kept (elts d) (elts d')) l l').
  { clear. induction l as [|x l IH]; intros [|y l'] HL H; try discriminate; constructor.
    - exact (H 0%nat x y eq_refl eq_refl).
    - apply IH; [simpl in HL; lia|]. intros k. exact (H (S k)). }
  destruct L0 as (N0 & L0 & _). destruct L1 as (N1 & _ & _).
  apply Q; [congruence|]. intros k d d' Hd Hd'.
  assert (Hk : (k < nsteps p * bands p + 1)%nat) by (rewrite <- N0; apply nth_error_Some; congruence).
  assert (Fd : all_finite d) by (rewrite Forall_forall in FIN; apply FIN; eapply nth_error_In; eauto).
  destruct (Nat.eq_dec k (nsteps p * bands p)) as [->|Hne].
  - rewrite D1, Hd in Hd'. inversion Hd'. apply kept_refl.
  - destruct (nth_split p k HA ltac:(lia)) as (s & i & -> & Hs & Hi).
    destruct (D2 s i Hs Hi) as (d0 & E0 & E1). rewrite Hd in E0. inversion E0; subst d0. rewrite Hd' in E1. inversion E1; subst d'.
    unfold denoised. destruct (is_1d p); cbn [elts].
    + apply K1. exact Fd.
    + apply K2; auto. destruct (L0 s i d Hs Hi Hd) as (W & _). exact W.
Qed.

Theorem kept_binary32 b data den : @reachable f32 binary32 p b -> keeps_shape den -> keeps_or_zeroes den ->
  (1 <= signum p)%Z -> Z.of_nat (length data) = signum p -> Forall (shaped p) data ->
  Forall all_finite data -> Forall (fun m => padded_energy p (values m) <= 2 ^ 220) data ->
  exists b0 b1 out, @decompose f32 binary32 b data null_denoiser = Ok (true, b0) /\
    @decompose f32 binary32 b data den = Ok (true, b1) /\
    @compose f32 binary32 b1 0 = Ok (true, out) /\ length out = length data /\
    forall c m ch0 ch1 o, nth_error data c = Some m -> nth_error (bdec b0) c = Some ch0 -> nth_error (bdec b1) c = Some ch1 ->
      nth_error out c = Some o ->
      sized (drows p) (dcols p) o /\ all_finite o /\
      error p (values o) (values m) <= err m
        + step_gain u32 p ^ nsteps p * sqrt (distance2 (map values ch0) (map values ch1)).
Proof.
  intros Hr HK Hk Hsig HL HS HF HE.
  destruct (moved_binary32 b data (map (@dec_of p f32 binary32 den) data)) as (b0 & out & E0 & Ec & Hlen & Hall); auto.
  - apply map_length.
  - apply Forall_forall. intros ch Hin. apply in_map_iff in Hin as (m & <- & _). apply dec_of_layout; auto.
  - rewrite Forall_forall in HS, HF, HE. apply Forall_forall. intros ch Hin. apply in_map_iff in Hin as (m & <- & Hm).
    pose proof (subbands_finite p HA m (HS m Hm) (HF m Hm) (HE m Hm)) as FIN.
    pose proof (denoised_kept den m HK Hk (HS m Hm) (HF m Hm) (HE m Hm)) as F2.
    induction F2 as [|d d' l l' H _ IH]; constructor; inversion FIN; subst; auto. eapply kept_finite; eauto.
  - rewrite Forall_forall in HS, HF, HE. apply Forall_forall. intros ch Hin. apply in_map_iff in Hin as (m & <- & Hm).
    eapply Rle_trans; [apply kept_energies; apply (denoised_kept den m HK Hk (HS m Hm) (HF m Hm) (HE m Hm))|].
    apply energy_222; auto.
  - exists b0. eexists. exists out. split; [exact E0|]. split; [apply (safe_ok p); auto|].
    split; [exact Ec|]. split; [exact Hlen|]. cbn [bdec]. exact Hall.
Qed.

(** ** accuracy and energy of what is stored *)
Theorem accurate_binary32 b be data : @reachable f32 binary32 p b -> @reachable R exactR p be ->
  (1 <= signum p)%Z -> Z.of_nat (length data) = signum p -> Forall (shaped p) data ->
  Forall all_finite data -> Forall (fun m => padded_energy p (values m) <= 2 ^ 220) data ->
  exists b' be', @decompose f32 binary32 b data null_denoiser = Ok (true, b') /\
    @decompose R exactR be (map values data) null_denoiser = Ok (true, be') /\
    length (bdec b') = length data /\
    forall c m ch che, nth_error data c = Some m -> nth_error (bdec b') c = Some ch -> nth_error (bdec be') c = Some che ->
      Forall all_finite ch /\
      sqrt (distance2 che (map values ch)) <= accuracy u32 eta32 p (sqrt (padded_energy p (values m))) /\
      sqrt (channel_energy (map values ch)) <= step_gain u32 p ^ nsteps p * sqrt (padded_energy p (values m)) + underflow u32 eta32 p / 2 /\
      (1 - float_rel u32 p) * sqrt (padded_energy p (values m)) - 2 * underflow u32 eta32 p <=
        step_gain u32 p ^ nsteps p * sqrt (channel_energy (map values ch)).
Proof.
  intros Hr Hre Hsig HL HS HF HE. eexists _, _. split; [apply (@dec_okA f32 binary32 p HA b data); auto|].
  assert (HSv : Forall (shaped p) (map values data)).
  { rewrite Forall_forall in *. intros m Hin. apply in_map_iff in Hin as (m' & <- & Hin). apply shaped_values; auto. }
  split; [apply (@dec_okA R exactR p HA be (map values data)); auto; rewrite map_length; auto|].
  cbn [bdec]. rewrite map_length. split; auto. intros c m ch che Hm Hc Hce.
  rewrite nth_error_map, Hm in Hc. inversion Hc; subst ch; clear Hc.
  rewrite !nth_error_map, Hm in Hce. inversion Hce; subst che; clear Hce.
  apply nth_error_In in Hm. rewrite Forall_forall in HS, HF, HE.
  pose proof (shaped_values m (HS m Hm)) as Sv.
  split; [apply (subbands_finite p HA m); auto|].
  rewrite (dec_values p HA m) by auto. split; [|split].
  - apply (dec_accuracy u32 eta32 A32 HR u32_pos eta32_pos p HA); auto.
  - apply (dec_energy u32 eta32 A32 HR u32_pos eta32_pos p HA); auto.
  - apply (dec_energy_lower u32 eta32 A32 HR u32_pos eta32_pos p HA); auto.
Qed.

(** ** composition of any channels: accuracy *)
Theorem compose_accurate_binary32 (chs : list (decomposition f32)) :
  (1 <= signum p)%Z -> Z.of_nat (length chs) = signum p ->
  Forall (has_layout p) chs -> Forall (Forall all_finite) chs ->
  Forall (fun ch => channel_energy (map values ch) <= 2 ^ 222) chs ->
  exists out oute, @compose f32 binary32 (Buffer p chs) 0 = Ok (true, out) /\
    @compose R exactR (Buffer p (map (map values) chs)) 0 = Ok (true, oute) /\ length out = length chs /\
    forall c ch o oe, nth_error chs c = Some ch -> nth_error out c = Some o -> nth_error oute c = Some oe ->
      sized (drows p) (dcols p) o /\ all_finite o /\
      error p (values o) oe <= accuracy u32 eta32 p (sqrt (channel_energy (map values ch))).
Proof.
  intros Hsig HLc HLay HFc HEc. rewrite Forall_forall in HLay, HFc, HEc. eexists _, _.
  pose proof (acc_steps p HA) as St.
  split. { apply (compose_ok p HA); cbn [bpar bdec]; auto. lia. }
  split. { apply (compose_ok p HA); cbn [bpar bdec]; auto; try lia.
    - rewrite map_length. exact HLc.
    - intros ch Hin. apply in_map_iff in Hin as (c & <- & Hin). apply values_layout; auto. }
  cbn [bdec]. rewrite map_length. split; auto. intros c ch o oe Hc Ho Hoe.
  rewrite nth_error_map, Hc in Ho. inversion Ho; subst o; clear Ho.
  pose proof (map_nth_error (map values) c chs Hc) as Hcv. apply (map_nth_error (@com_of p R exactR 0)) in Hcv.
  pose proof (eq_trans (eq_sym Hoe) Hcv) as Q. inversion Q; subst oe; clear Q Hoe Hcv. apply nth_error_In in Hc.
  destruct (comm_values p HA ch (HLay ch Hc) (HFc ch Hc) (HEc ch Hc)) as [V F].
  split; [apply com32_sized|]. split; [exact F|]. change (Z.to_nat 0) with 0%nat. rewrite V.
  apply (com_accuracy u32 eta32 A32 HR u32_pos eta32_pos p HA). apply values_layout; auto.
Qed.

(** ** composing and decomposing again *)
Section Back.
Hypothesis (Hrows : level_rows p 0 = drows p) (Hcols : level_cols p 0 = dcols p).
Lemma back_energy (ch : list (mat f32)) : has_layout p ch -> Forall all_finite ch -> channel_energy (map values ch) <= 2 ^ 218 ->
  let o := @com_of p f32 binary32 0 ch in
  all_finite o /\ values o = @com_of p R A32 0 (map values ch) /\ padded_energy p (values o) <= 2 ^ 220.
Proof.
  intros HL HF HE o.
  assert (HE' : channel_energy (map values ch) <= 2 ^ 222) by (eapply Rle_trans; [exact HE|apply Rle_pow; [lra|lia]]).
  destruct (comm_values p HA ch HL HF HE') as [V F]. split; [exact F|]. split; [exact V|]. unfold o. rewrite V.
  assert (Sz : sized (drows p) (dcols p) (@com_of p R A32 0 (map values ch))) by (apply com_sized0; auto).
  assert (N : sqrt (padded_energy p (@com_of p R A32 0 (map values ch))) <= bp 110).
  { rewrite <- (padded_nrm p HA _ (proj2 (proj2 Sz))). cbn [ap].
    rewrite (nrm_ext _ _ _ (@rc R A32 g (map values ch) (gK g))).
    2:{ intros i j Hi Hj. rewrite <- (padf_R u32 eta32 A32 HR). apply (whole A32 p HA Hrows Hcols); auto. }
    destruct (rc_norm u32 eta32 A32 HR u32_pos eta32_pos g (geom_wf p HA) (map values ch) (gK g) (Nat.le_refl _)) as [H _].
    rewrite Nat.sub_diag in H. rewrite (moved_energy u32 eta32 A32 HR g) in H.
    2:{ apply (layout_iff p HA). apply values_layout; auto. }
    eapply Rle_trans; [exact H|]. pose proof (K62 p HA).
    eapply Rle_trans; [apply (grow p HA); [lia|lia|apply sqrt_pos]|].
    assert (S : sqrt (channel_energy (map values ch)) <= bp 109).
    { apply bp_sqrt. change (2 * 109)%Z with (Z.of_nat 218). rewrite bp_nat. exact HE. }
    assert (bp 110 = 2 * bp 109) by (change 110%Z with (1 + 109)%Z; rewrite bpow_plus; reflexivity).
    assert (4 <= bp 109) by (change 4 with (bp 2); apply bpow_le; lia). lra. }
  assert (C0 : 0 <= padded_energy p (@com_of p R A32 0 (map values ch))).
  { apply Rnot_lt_le. intros L. pose proof (padded_nrm p HA _ (proj2 (proj2 Sz))) as Q. 
    unfold padded_energy in L. rewrite total_rsum in L. revert L. apply Rle_not_lt. apply rsum_nonneg. intros. rewrite total_rsum.
    apply rsum_nonneg. intros. apply Rle_0_sqr. }
  change 220%nat with (110 + 110)%nat. rewrite pow_add, <- bp_nat. change (Z.of_nat 110) with 110%Z.
  rewrite <- (sqrt_sqrt _ C0). apply Rmult_le_compat; auto; apply sqrt_pos.
Qed.

Theorem back_binary32 b (chs : list (decomposition f32)) : @reachable f32 binary32 p b ->
  (1 <= signum p)%Z -> Z.of_nat (length chs) = signum p ->
  Forall (has_layout p) chs -> Forall (Forall all_finite) chs ->
  Forall (fun ch => channel_energy (map values ch) <= 2 ^ 218) chs ->
  exists out b', @compose f32 binary32 (Buffer p chs) 0 = Ok (true, out) /\
    @decompose f32 binary32 b out null_denoiser = Ok (true, b') /\ length (bdec b') = length chs /\
    forall c ch ch', nth_error chs c = Some ch -> nth_error (bdec b') c = Some ch' ->
      has_layout p ch' /\ Forall all_finite ch' /\
      sqrt (distance2 (map values ch') (map values ch)) <=
        float_rel u32 p * sqrt (channel_energy (map values ch)) + underflow u32 eta32 p.
Proof.
  intros Hr Hsig HLc HLay HFc HEc. rewrite Forall_forall in HLay, HFc, HEc. eexists _, _.
  pose proof (acc_steps p HA) as St.
  split. { apply (compose_ok p HA); cbn [bpar bdec]; auto. lia. }
  cbn [bdec].
  split.
  { apply (@dec_okA f32 binary32 p HA b); auto.
    - rewrite map_length. auto.
    - apply Forall_forall. intros m Hin. apply in_map_iff in Hin as (ch & <- & _). apply com32_sized. }
  cbn [bdec]. rewrite !map_length. split; auto. intros c ch ch' Hc Hc'.
  rewrite !nth_error_map, Hc in Hc'. inversion Hc'; subst ch'; clear Hc'. apply nth_error_In in Hc. change (Z.to_nat 0) with 0%nat.
  destruct (back_energy ch (HLay ch Hc) (HFc ch Hc) (HEc ch Hc)) as (F & V & E).
  pose proof (com32_sized ch) as Sz.
  split; [apply dec_of_layout; auto; apply null_keepsA|].
  split; [apply (subbands_finite p HA); auto|].
  rewrite (dec_values p HA) by auto. rewrite V.
  apply (dec_back u32 eta32 A32 HR u32_pos eta32_pos p HA Hrows Hcols). apply values_layout; auto.
Qed.
End Back.
End P.
