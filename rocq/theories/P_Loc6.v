(** * P_Loc6: error of a sample in binary32. *)
Require Import List Bool Arith ZArith QArith Qreals Lia Reals Lra Psatz.
Require Import ZifyBool.
Require Import Flocq.Core.Core Flocq.IEEE754.BinarySingleNaN.
Require Import Verif.M_Base Verif.M_Params Verif.M_Padding Verif.M_Wavelet Verif.M_Buffer Verif.M_Real Verif.M_Float Verif.M_Binary32 Verif.M_Denoise Verif.M_Mag32.
Require Import Verif.S_Params Verif.S_Padding Verif.S_Buffer Verif.S_Exact Verif.S_Round Verif.S_Stable Verif.S_Local Verif.S_Denoise.
Require Import Verif.P_Base Verif.P_Wavelet Verif.P_Buffer Verif.P_Impl Verif.P_Api Verif.P_Api2.
Require Import Verif.P_Sum Verif.P_Lin Verif.P_PR Verif.P_L2 Verif.P_Rec Verif.P_Exact Verif.P_Round Verif.P_Round2 Verif.P_Round3.
Require Import Verif.P_Float Verif.P_Binary32 Verif.P_Bin2 Verif.P_Bin3 Verif.P_Denoise.
Require Import Verif.P_Stable Verif.P_Stable2 Verif.P_Dual3 Verif.P_BinMove Verif.P_BinMove2 Verif.P_DenoiseF Verif.P_Loc4 Verif.P_Loc5.
Import ListNotations.
Open Scope R_scope.

Section P.
Variable p : params.
Hypothesis HA : accepted p.
Notation g := (geom_of p).
Let HR := A32_rounding.

(** bounded samples do not overflow *)
Definition bounded (B : R) (m : mat f32) : Prop := Forall (fun x : f32 => is_finite x = true /\ Rabs (B2R x) <= B) (elts m).
Lemma bounded_finite B m : bounded B m -> all_finite m.
Proof. intros H. eapply Forall_impl; [|exact H]. intros y [Hy _]. exact Hy. Qed.
Lemma bounded_values B m : bounded B m -> Forall (fun v => Rabs v <= B) (elts (values m)).
Proof.
  intros H. rewrite values_elts. apply Forall_forall. intros v Hv. apply in_map_iff in Hv as (y & <- & Hy).
  unfold bounded in H. rewrite Forall_forall in H. apply (H y Hy).
Qed.
Lemma bounded_energy B m : shaped p m -> bounded B m -> B <= 2 ^ 46 -> padded_energy p (values m) <= 2 ^ 220.
Proof.
  intros HS HB HB46.
  assert (E : sqrt (padded_energy p (values m)) <= sqrt (INR (level_rows p 0 * level_cols p 0)) * Rmax B 0).
  { apply energy_bound; auto; [apply shaped_values; auto|apply Rmax_r|].
    eapply Forall_impl; [|apply bounded_values; exact HB]. intros v Hv. eapply Rle_trans; [exact Hv|apply Rmax_l]. }
  assert (E0 : 0 <= padded_energy p (values m)).
  { unfold padded_energy. apply rsum_nonneg. intros. apply rsum_nonneg. intros. apply Rle_0_sqr. }
  apply Rle_trans with (sqrt (padded_energy p (values m)) * sqrt (padded_energy p (values m))); [rewrite sqrt_sqrt by auto; lra|].
  pose proof (area_bound p HA) as AB. rewrite (hs_level p HA), (ws_level p HA) in AB.
  assert (MB : 0 <= Rmax B 0 <= bp 46).
  { split; [apply Rmax_r|]. apply Rmax_lub; [|apply Rlt_le, bp_pos].
    eapply Rle_trans; [exact HB46|]. apply Req_le. rewrite (pow_IZR 2 46). reflexivity. }
  assert (sqrt (padded_energy p (values m)) <= bp 110).
  { eapply Rle_trans; [exact E|]. change 110%Z with (64 + 46)%Z. rewrite bpow_plus.
    apply Rmult_le_compat; auto; try apply sqrt_pos; apply MB. }
  apply Rle_trans with (bp 110 * bp 110); [apply Rmult_le_compat; auto using sqrt_pos|].
  rewrite <- bpow_plus. apply Req_le. change (110 + 110)%Z with (Z.of_nat 220). rewrite <- (IZR_Zpower radix2 (Z.of_nat 220)) by lia.
  rewrite (pow_IZR 2 220). reflexivity.
Qed.

Notation bnd B := (float_rel u32 p * (sqrt (INR (window_area p)) * B) + underflow u32 eta32 p).

Lemma one_sample B m : shaped p m -> B <= 2 ^ 46 -> bounded B m ->
  let o := @com_of p f32 binary32 0 (@dec_of p f32 binary32 null_denoiser m) in
  sized (drows p) (dcols p) o /\ all_finite o /\
  forall i j, (i < drows p)%nat -> (j < dcols p)%nat -> Rabs (at_ (values o) i j - at_ (values m) i j) <= bnd B.
Proof.
  intros S HB46 Bm. cbv zeta.
  destruct (com_values p HA m S (bounded_finite B m Bm) (bounded_energy B m S Bm HB46)) as [V F].
  split; [apply com32_sized; auto|]. split; [exact F|]. intros i j Hi Hj. rewrite V.
  pose proof (com_local u32 eta32 A32 HR u32_pos eta32_pos p HA (values m) (@dec_of p R A32 null_denoiser (values m)) B 0 0 i j (shaped_values p m S)) as H.
  rewrite spread_0, Rmult_0_r, Rplus_0_r in H.
  apply H; auto using Rle_refl, within_refl, bounded_values. apply dec_of_layout; auto. apply null_keepsA.
Qed.
Theorem local32_samples b data B : @reachable f32 binary32 p b ->
  (1 <= signum p)%Z -> Z.of_nat (length data) = signum p -> Forall (shaped p) data -> B <= 2 ^ 46 -> Forall (bounded B) data ->
  exists b' out, @decompose f32 binary32 b data null_denoiser = Ok (true, b') /\
    @compose f32 binary32 b' 0 = Ok (true, out) /\ length out = length data /\
    forall c m o, nth_error data c = Some m -> nth_error out c = Some o ->
      sized (drows p) (dcols p) o /\ all_finite o /\
      forall i j, (i < drows p)%nat -> (j < dcols p)%nat -> Rabs (at_ (values o) i j - at_ (values m) i j) <= bnd B.
Proof.
  intros Hr Hsig HL HS HB46 HB. eexists _, _. split; [apply (@dec_okA f32 binary32 p HA b data); auto|].
  split; [apply (@com_okA f32 binary32 p HA data 0); auto; lia|].
  rewrite map_length. split; auto. intros c m o Hm Ho.
  rewrite nth_error_map, Hm in Ho. inversion Ho; subst o; clear Ho. apply nth_error_In in Hm. rewrite Forall_forall in HS, HB.
  apply one_sample; auto.
Qed.

(** any channels *)
Theorem local32_compose b data (chs : list (decomposition f32)) B T T0 : @reachable f32 binary32 p b ->
  (1 <= signum p)%Z -> Z.of_nat (length data) = signum p -> Forall (shaped p) data -> B <= 2 ^ 46 -> Forall (bounded B) data ->
  0 <= T -> 0 <= T0 -> length chs = length data -> Forall (has_layout p) chs -> Forall (Forall all_finite) chs ->
  Forall (fun ch => channel_energy (map values ch) <= 2 ^ 222) chs ->
  exists b0 out, @decompose f32 binary32 b data null_denoiser = Ok (true, b0) /\
    @compose f32 binary32 (Buffer p chs) 0 = Ok (true, out) /\ length out = length data /\
    forall c m ch0 ch o, nth_error data c = Some m -> nth_error (bdec b0) c = Some ch0 -> nth_error chs c = Some ch ->
      nth_error out c = Some o -> within_each T T0 p (map values ch0) (map values ch) ->
      sized (drows p) (dcols p) o /\ all_finite o /\
      forall i j, (i < drows p)%nat -> (j < dcols p)%nat ->
        Rabs (at_ (values o) i j - at_ (values m) i j) <= bnd B + step_gain u32 p ^ nsteps p * spread p T T0.
Proof.
  intros Hr Hsig HL HS HB46 HB HT HT0 HLc HLay HFc HEc. eexists _, _. split; [apply (@dec_okA f32 binary32 p HA b data); auto|].
  split.
  { apply (compose_ok p HA); cbn [bpar bdec].
    - reflexivity.
    - exact (eq_trans (f_equal Z.of_nat HLc) HL).
    - apply Forall_forall. auto.
    - pose proof (acc_steps p HA). lia. }
  rewrite map_length. cbn [bdec]. split; auto. intros c m ch0 ch o Hm Hc0 Hc Ho HW.
  rewrite nth_error_map, Hc in Ho. inversion Ho; subst o; clear Ho.
  rewrite nth_error_map, Hm in Hc0. inversion Hc0; subst ch0; clear Hc0.
  apply nth_error_In in Hm. apply nth_error_In in Hc. rewrite Forall_forall in HS, HB, HLay, HFc, HEc.
  pose proof (HS m Hm) as S. pose proof (HB m Hm) as Bm.
  destruct (comm_values p HA ch (HLay ch Hc) (HFc ch Hc) (HEc ch Hc)) as [V F].
  split; [apply com32_sized; auto|]. split; [exact F|]. intros i j Hi Hj. rewrite V.
  rewrite (dec_values p HA m S (bounded_finite B m Bm) (bounded_energy B m S Bm HB46)) in HW.
  apply (com_local u32 eta32 A32 HR u32_pos eta32_pos p HA); auto using bounded_values, shaped_values.
  apply values_layout; auto.
Qed.

(** the threshold denoiser *)
Lemma threshold_within32 (b b0 b1 : buffer f32) data (ta tb : f32) T c m ch0 ch1 : @reachable f32 binary32 p b -> 0 <= T ->
  (forall s, (s < nsteps p)%nat -> is_finite (get_threshold ta tb s) = true /\ B2R (get_threshold ta tb s) <= T) ->
  (1 <= signum p)%Z -> Z.of_nat (length data) = signum p -> Forall (shaped p) data ->
  nth_error data c = Some m -> all_finite m -> padded_energy p (values m) <= 2 ^ 220 ->
  @decompose f32 binary32 b data null_denoiser = Ok (true, b0) ->
  @decompose f32 binary32 b data (threshold_denoiser ta tb) = Ok (true, b1) ->
  nth_error (bdec b0) c = Some ch0 -> nth_error (bdec b1) c = Some ch1 -> within_each T 0 p (map values ch0) (map values ch1).
Proof.
  intros Hr HT Hthr Hsig HL HS Hm HF HE E0 E1 H0 H1.
  pose proof (@threshold_in_decompose f32 binary32 floatMag p b b data ta tb HA Hr Hsig HL HS) as TD. destruct TD as (b1' & b0' & F1 & F0 & HD).
  rewrite E1 in F1. rewrite E0 in F0. inversion F1; inversion F0; subst b1' b0'. clear F1 F0.
  pose proof (nth_error_In _ _ Hm) as Im.
  assert (E : ch0 = @dec_of p f32 binary32 null_denoiser m).
  { pose proof (@dec_okA f32 binary32 p HA b data Hr Hsig HL HS) as F. rewrite E0 in F. inversion F; subst b0.
    cbn [bdec] in H0. rewrite nth_error_map, Hm in H0. inversion H0; subst ch0. reflexivity. }
  rewrite Forall_forall in HS.
  assert (Hlk : has_layout p ch0) by (subst ch0; apply (dec_of_layout p HA (@null_denoiser f32) m null_keepsA)).
  assert (FIN : Forall all_finite ch0) by (subst ch0; apply (subbands_finite p HA m); auto).
  destruct (HD c ch1 ch0) as [HDa HDd]; auto.
  intros k d0 d1 Hk0 Hk1 i x y Hx Hy.
  apply nth_map_inv in Hk0 as (D0 & N0 & ->). apply nth_map_inv in Hk1 as (D1 & N1 & ->).
  rewrite values_elts in Hx, Hy. apply nth_map_inv in Hx as (X & NX & ->). apply nth_map_inv in Hy as (Y & NY & ->).
  assert (Hk : (k < nsteps p * bands p + 1)%nat).
  { destruct Hlk as [Hlk _]. rewrite <- Hlk. apply nth_error_Some. congruence. }
  destruct (Nat.ltb_spec k (nsteps p * bands p)) as [Hlt|Hge].
  - destruct (nth_split p k HA Hlt) as (s & ib & -> & Hs & Hib).
    pose proof (HDd s ib D1 D0 Hs Hib N1 N0) as ED. rewrite ED in NY. apply nth_map_inv in NY as (X' & NX' & ->).
    pose proof (eq_trans (eq_sym NX) NX') as EX. injection EX as <-. destruct (Hthr s Hs) as (Ft & Bt).
    assert (FX : is_finite X = true).
    { rewrite Forall_forall in FIN. specialize (FIN D0 (nth_error_In _ _ N0)). unfold all_finite in FIN. rewrite Forall_forall in FIN.
      apply FIN. eapply nth_error_In; eauto. }
    destruct (thr_rule ta tb s X Ft FX) as [K Z]. cbv zeta in K, Z.
    destruct (Rlt_le_dec (B2R (get_threshold ta tb s)) (Rabs (B2R X))) as [L|L].
    + eapply Rle_trans; [apply Req_le; apply (f_equal (fun v : f32 => Rabs (B2R v - B2R X)) (K L))|].
      cbv beta. unfold Rminus. rewrite Rplus_opp_r, Rabs_R0. auto.
    + eapply Rle_trans; [apply Req_le; apply (f_equal (fun v : f32 => Rabs (B2R v - B2R X)) (Z L))|].
      cbv beta. cbn [B2R]. replace (0 - B2R X) with (- B2R X) by ring. rewrite Rabs_Ropp. lra.
  - assert (k = nsteps p * bands p)%nat by lia. subst k.
    rewrite HDa, N0 in N1. inversion N1; subst D1. rewrite NX in NY. inversion NY; subst Y.
    unfold Rminus. rewrite Rplus_opp_r, Rabs_R0. lra.
Qed.

Theorem local32_threshold b data (ta tb : f32) B T : @reachable f32 binary32 p b -> 0 <= T ->
  (forall s, (s < nsteps p)%nat -> is_finite (get_threshold ta tb s) = true /\ B2R (get_threshold ta tb s) <= T) ->
  (1 <= signum p)%Z -> Z.of_nat (length data) = signum p -> Forall (shaped p) data -> B <= 2 ^ 46 -> Forall (bounded B) data ->
  exists b1 out, @decompose f32 binary32 b data (threshold_denoiser ta tb) = Ok (true, b1) /\
    @compose f32 binary32 b1 0 = Ok (true, out) /\ length out = length data /\
    forall c m o, nth_error data c = Some m -> nth_error out c = Some o ->
      sized (drows p) (dcols p) o /\ all_finite o /\
      forall i j, (i < drows p)%nat -> (j < dcols p)%nat ->
        Rabs (at_ (values o) i j - at_ (values m) i j) <=
          bnd B + step_gain u32 p ^ nsteps p * (T * sqrt (INR (cone p * (nsteps p * bands p)))).
Proof.
  intros Hr HT Hthr Hsig HL HS HB46 HB.
  assert (HF : Forall all_finite data) by (eapply Forall_impl; [|exact HB]; intros m; apply bounded_finite).
  assert (HE : Forall (fun m => padded_energy p (values m) <= 2 ^ 220) data).
  { rewrite Forall_forall in *. intros m Hm. apply (bounded_energy B); auto. }
  destruct (kept_binary32 p HA b data (threshold_denoiser ta tb)) as (b0 & b1 & out & E0 & E1 & Ec & Hlen & Hall); auto.
  { apply threshold_keeps. } { apply threshold_kept. }
  exists b1, out. split; auto. split; auto. split; auto. intros c m o Hm Ho.
  assert (KS : keeps_shape (threshold_denoiser ta tb)) by apply threshold_keeps.
  assert (E1' : @decompose f32 binary32 b data (threshold_denoiser ta tb) = Ok (true, Buffer p (map (@dec_of p f32 binary32 (threshold_denoiser ta tb)) data)))
    by (apply (safe_ok p); auto).
  assert (B1 : b1 = Buffer p (map (@dec_of p f32 binary32 (threshold_denoiser ta tb)) data)) by (rewrite E1 in E1'; inversion E1'; auto).
  pose proof (@dec_okA f32 binary32 p HA b data Hr Hsig HL HS) as E0'.
  assert (B0 : b0 = Buffer p (map (@dec_of p f32 binary32 null_denoiser) data)) by (rewrite E0 in E0'; inversion E0'; auto).
  assert (N0 : nth_error (bdec b0) c = Some (@dec_of p f32 binary32 null_denoiser m)) by (rewrite B0; cbn [bdec]; apply map_nth_error; auto).
  assert (N1 : nth_error (bdec b1) c = Some (@dec_of p f32 binary32 (threshold_denoiser ta tb) m)) by (rewrite B1; cbn [bdec]; apply map_nth_error; auto).
  destruct (Hall c m _ _ o Hm N0 N1 Ho) as (Hsz & Hfin & _). split; auto. split; auto. intros i j Hi Hj.
  rewrite Forall_forall in HF, HE. pose proof (nth_error_In _ _ Hm) as Im.
  pose proof (threshold_within32 b b0 b1 data ta tb T c m _ _ Hr HT Hthr Hsig HL HS Hm (HF m Im) (HE m Im) E0 E1 N0 N1) as W.
  rewrite Forall_forall in HS, HB.
  assert (Eo : o = @com_of p f32 binary32 0 (@dec_of p f32 binary32 (threshold_denoiser ta tb) m)).
  { assert (EC : @compose f32 binary32 b1 0 = Ok (true, map (@com_of p f32 binary32 0) (map (@dec_of p f32 binary32 (threshold_denoiser ta tb)) data))).
    { rewrite B1. apply (compose_ok p HA); cbn [bpar bdec]; auto.
      - rewrite map_length. auto.
      - intros ch Hin. apply in_map_iff in Hin as (m' & <- & _). apply dec_of_layout; auto.
      - pose proof (acc_steps p HA). lia. }
    rewrite Ec in EC. inversion EC; subst out. 
    assert (NN : nth_error (map (@com_of p f32 binary32 0) (map (@dec_of p f32 binary32 (threshold_denoiser ta tb)) data)) c =
       Some (@com_of p f32 binary32 0 (@dec_of p f32 binary32 (threshold_denoiser ta tb) m))) by (do 2 apply map_nth_error; auto).
    rewrite NN in Ho. inversion Ho. reflexivity. }
  subst o.
  set (ch := @dec_of p f32 binary32 (threshold_denoiser ta tb) m) in *.
  assert (LY : has_layout p ch) by (apply dec_of_layout; auto).
  pose proof (denoised_kept p HA (threshold_denoiser ta tb) m KS (threshold_kept ta tb) (HS m Im) (HF m Im) (HE m Im)) as F2. fold ch in F2.
  assert (FC : Forall all_finite ch).
  { pose proof (subbands_finite p HA m (HS m Im) (HF m Im) (HE m Im)) as FIN.
    clear -F2 FIN. induction F2 as [|d d' l l' H _ IH]; constructor; inversion FIN; subst; auto. eapply kept_finite; eauto. }
  assert (EC : channel_energy (map values ch) <= 2 ^ 222).
  { eapply Rle_trans; [apply kept_energies; exact F2|]. apply energy_222; auto. }
  destruct (comm_values p HA ch LY FC EC) as [V _]. rewrite V.
  rewrite (dec_values p HA m (HS m Im) (HF m Im) (HE m Im)) in W.
  eapply Rle_trans; [apply (com_local u32 eta32 A32 HR u32_pos eta32_pos p HA (values m) (map values ch) B T 0); auto using Rle_refl, bounded_values, shaped_values|].
  { apply values_layout; auto. }
  apply Req_le. f_equal. f_equal. unfold spread.
  replace (INR (cone p) * (INR (nsteps p * bands p) * (T * T) + 0 * 0)) with (INR (cone p * (nsteps p * bands p)) * (T * T))
    by (rewrite (mult_INR (cone p)); ring).
  rewrite sqrt_mult by (try apply pos_INR; nra). rewrite sqrt_square by auto. ring.
Qed.

(** the constant for DB1 *)
Lemma pass_db1 : 1 <= pass_gain u32 1 <= 1 + 507 / 10 ^ 9.
Proof.
  unfold pass_gain. change (filter_defect 1) with 0%Q. change (coefficient_sum 1) with 1%Q. change (2 * Z.to_nat 1 + 4)%nat with 6%nat.
  rewrite RMicromega.Q2R_0, RMicromega.Q2R_1.
  assert (U : u32 = / 16777216) by reflexivity.
  assert (P : 1 <= (1 + u32) ^ 6) by (apply pow_R1_Rle; rewrite U; lra).
  assert (Q : (1 + u32) ^ 6 - 1 <= 35765 / 10 ^ 11).
  { eapply Rle_trans; [apply (pow_bound u32 6 (357628 / 10 ^ 12))|]; rewrite ?U; simpl (INR 6); lra. }
  pose proof sqrt2_bounds as S2.
  assert (S3 : sqrt 2 <= 14143 / 10000). { apply sqrt_le_by; lra. }
  set (w := (1 + u32) ^ 6 - 1) in *. assert (0 <= w) by (unfold w; lra).
  assert (0 <= sqrt 2 * 1 * w) by (apply Rmult_le_pos; lra).
  assert (sqrt 2 * 1 * w <= 14143 / 10000 * (35765 / 10 ^ 11)) by (apply Rmult_le_compat; lra).
  lra.
Qed.
Theorem float_rel_db1 : wtype p = 1%Z -> float_rel u32 p <= INR (passes p * nsteps p) * (102 / 10 ^ 8).
Proof.
  intros Ht. unfold float_rel, step_gain. rewrite Ht, <- pow_mult.
  destruct pass_db1 as [L H]. pose proof (K62 p HA) as K. rewrite (K_nsteps p HA) in K.
  set (n := (passes p * nsteps p)%nat). replace (passes p * (2 * nsteps p))%nat with (2 * n)%nat by (unfold n; lia).
  assert (Hn : (n <= 124)%nat) by (unfold n, passes; destruct (is_1d p); lia).
  apply le_INR in Hn. rewrite (INR_IZR_INZ 124) in Hn. simpl (IZR _) in Hn. pose proof (pos_INR n) as H0.
  set (v := 507 / 10 ^ 9) in *.
  assert (H1 : pass_gain u32 1 ^ (2 * n) <= (1 + v) ^ (2 * n)) by (apply pow_incr; lra).
  assert (Hv : v = 507 / 10 ^ 9) by reflexivity. clearbody v.
  assert (D : INR (2 * n) = 2 * INR n) by (rewrite mult_INR; simpl (INR 2); ring).
  pose proof (pow_bound v (2 * n) (INR (2 * n) * v) ltac:(rewrite Hv; lra) (Rle_refl _) ltac:(rewrite D, Hv; lra)) as B.
  assert (H2 : INR (2 * n) * v / (1 - INR (2 * n) * v) <= INR n * (102 / 10 ^ 8)).
  { rewrite D. unfold Rdiv at 1. rewrite Hv.
    apply (Rmult_le_reg_r (1 - 2 * INR n * (507 / 10 ^ 9))); [lra|]. rewrite Rmult_assoc, Rinv_l by lra. nra. }
  lra.
Qed.
End P.
