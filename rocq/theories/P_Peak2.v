(** * P_Peak2: coefficient magnitudes and stored samples in binary32 *)
Require Import List Bool Arith ZArith QArith Qreals Lia Reals Lra.
Require Import ZifyBool.
Require Import Flocq.Core.Core Flocq.IEEE754.BinarySingleNaN.
Require Import Verif.M_Base Verif.M_Params Verif.M_Wavelet Verif.M_Buffer Verif.M_Real Verif.M_Float Verif.M_Binary32 Verif.M_Denoise
  Verif.M_Archive Verif.M_SfCodec Verif.M_SfEqual Verif.M_Serializer.
Require Import Verif.S_Params Verif.S_Buffer Verif.S_Exact Verif.S_Round Verif.S_Stable Verif.S_Local Verif.S_Serializer Verif.S_Lossy.
Require Import Verif.P_Base Verif.P_Wavelet Verif.P_Buffer Verif.P_Impl Verif.P_Api Verif.P_Api2 Verif.P_Sum Verif.P_Lin Verif.P_PR Verif.P_L2 Verif.P_Rec Verif.P_Exact
  Verif.P_Rel Verif.P_Round Verif.P_Round2 Verif.P_Round3 Verif.P_Float Verif.P_Binary32 Verif.P_Bin2 Verif.P_Bin3 Verif.P_Stable Verif.P_Stable2 Verif.P_Dual3 Verif.P_BinMove Verif.P_BinMove2 Verif.P_DenoiseF Verif.P_Loc4 Verif.P_Loc5 Verif.P_Loc6 Verif.P_Lossy2 Verif.P_Peak.
Import ListNotations.
Open Scope R_scope.

Section R.
Variables (u eta : R) (A : Arith R).
Hypothesis (HR : rounding u eta A) (Hu : 0 <= u) (Heta : 0 <= eta).
Variable p : params.
Hypothesis HA : accepted p.

Lemma subband_peak m B k d : shaped p m -> 0 <= B -> Forall (fun x => Rabs x <= B) (elts m) ->
  nth_error (@dec_of p R A null_denoiser m) k = Some d ->
  Forall (fun x => Rabs x <= peak u eta p (passes p * depth p k) B) (elts d).
Proof.
  intros HS B0 HB Hd.
  pose proof (dec_of_layout p HA (@null_denoiser R) m null_keepsA : has_layout p (@dec_of p R A null_denoiser m)) as (L1 & _).
  assert (Hk : (k < nsteps p * bands p + 1)%nat) by (rewrite <- L1; apply nth_error_Some; rewrite Hd; discriminate).
  assert (b1 : (1 <= bands p)%nat) by (unfold bands; destruct (is_1d p); lia).
  unfold depth. destruct (Nat.eq_dec k (nsteps p * bands p)) as [->|Hne].
  - rewrite Nat.div_mul by lia. rewrite Nat.min_r by lia. apply (approximation_peak u eta A HR Hu Heta p HA m B d); auto.
  - assert (Hs : (k / bands p < nsteps p)%nat) by (apply Nat.div_lt_upper_bound; lia).
    rewrite Nat.min_l by lia.
    apply (coefficient_peak u eta A HR Hu Heta p HA m B (k / bands p) (k mod bands p) d); auto.
    + apply Nat.mod_upper_bound. lia.
    + rewrite Nat.mul_comm, <- Nat.div_mod by lia. exact Hd.
Qed.
Theorem peaks b data B : @reachable R A p b -> (1 <= signum p)%Z -> Z.of_nat (length data) = signum p -> Forall (shaped p) data ->
  0 <= B -> Forall (fun m => Forall (fun x => Rabs x <= B) (elts m)) data ->
  exists b', @decompose R A b data null_denoiser = Ok (true, b') /\
    forall ch k d, In ch (bdec b') -> nth_error ch k = Some d ->
      Forall (fun x => Rabs x <= peak u eta p (passes p * depth p k) B) (elts d).
Proof.
  intros Hr Hsig HL HS B0 HB. eexists. split; [apply (@dec_okA R A p HA b data); auto|].
  cbn [bdec]. intros ch k d Hin Hd. apply in_map_iff in Hin as (m & <- & Hm). rewrite Forall_forall in HS, HB.
  apply (subband_peak m B k d); auto.
Qed.
Lemma peak_mono n m B : (1 <= wtype p <= 10)%Z -> 0 <= B -> (n <= m)%nat -> peak u eta p n B <= peak u eta p m B.
Proof.
  intros Ht B0 H. rewrite !(peak_pk u eta p HA). apply pk_mono; auto. rewrite <- (geom_t p HA). exact Ht.
Qed.
Lemma peak_0 n B : 0 <= B -> (n <= passes p * nsteps p)%nat -> 0 <= peak u eta p n B.
Proof.
  intros B0 Hn. destruct (Z.eq_dec (wtype p) 0) as [E|E].
  - apply (acc_none p HA) in E. unfold nsteps in Hn. rewrite E in Hn. rewrite Nat.mul_0_r in Hn. assert (n = 0%nat) by lia. subst n.
    unfold peak. cbn [pow INR]. lra.
  - unfold peak. pose proof (acc_type p HA) as W. apply Rmult_le_pos.
    + apply pow_le. pose proof (peak_gain_1 u Hu (wtype p) ltac:(lia)). lra.
    + pose proof (peak_under_0 u eta Hu Heta (wtype p)). pose proof (pos_INR n). assert (0 <= INR n * peak_under u eta (wtype p)) by (apply Rmult_le_pos; auto). lra.
Qed.
End R.

Section F.
Variable p : params.
Hypothesis HA : accepted p.
Let HR := A32_rounding.

Lemma subband32_peak m B k d : shaped p m -> 0 <= B <= 2 ^ 46 -> bounded B m ->
  nth_error (@dec_of p f32 binary32 null_denoiser m) k = Some d ->
  bounded (peak u32 eta32 p (passes p * depth p k) B) d.
Proof.
  intros HS HB Bm Hd.
  pose proof (bounded_energy p HA B m HS Bm (proj2 HB)) as EN.
  pose proof (dec_values p HA m HS (bounded_finite B m Bm) EN) as V.
  pose proof (subbands_finite p HA m HS (bounded_finite B m Bm) EN) as FIN. rewrite Forall_forall in FIN.
  pose proof (FIN d (nth_error_In _ _ Hd)) as Fd.
  pose proof (subband_peak u32 eta32 A32 HR u32_pos eta32_pos p HA (values m) B k (values d) (shaped_values p m HS) (proj1 HB) (bounded_values B m Bm)) as H.
  rewrite <- V, nth_error_map, Hd in H. specialize (H eq_refl).
  unfold bounded, all_finite in *. rewrite values_elts in H. rewrite Forall_forall in *.
  intros x Hx. split; [auto|]. apply H. apply in_map. exact Hx.
Qed.
Theorem peaks32 b data B : @reachable f32 binary32 p b -> (1 <= signum p)%Z -> Z.of_nat (length data) = signum p -> Forall (shaped p) data ->
  0 <= B <= 2 ^ 46 -> Forall (bounded B) data ->
  exists b', @decompose f32 binary32 b data null_denoiser = Ok (true, b') /\
    forall ch k d, In ch (bdec b') -> nth_error ch k = Some d -> bounded (peak u32 eta32 p (passes p * depth p k) B) d.
Proof.
  intros Hr Hsig HL HS B0 HB. eexists. split; [apply (@dec_okA f32 binary32 p HA b data); auto|].
  cbn [bdec]. intros ch k d Hin Hd. apply in_map_iff in Hin as (m & <- & Hm). rewrite Forall_forall in HS, HB.
  apply (subband32_peak m B k d); auto.
Qed.

(** samples that were stored *)
Notation bnd B := (float_rel u32 p * (sqrt (INR (window_area p)) * B) + underflow u32 eta32 p).
Theorem stored_samples b data cd sf q d e B :
  @reachable f32 binary32 p b -> Forall (fun n => (1 <= n)%Z) (shape p) ->
  (Z.of_nat (level_rows p 0) < 2 ^ 31)%Z -> (Z.of_nat (level_cols p 0) < 2 ^ 31)%Z ->
  (Z.of_nat (level_rows p 0) * Z.of_nat (level_cols p 0) < 2 ^ 32)%Z ->
  (1 <= signum p)%Z -> Z.of_nat (length data) = signum p -> Forall (shaped p) data ->
  0 <= B <= 2 ^ 46 -> Forall (bounded B) data ->
  (1 <= sf)%Z -> codec_faithful cd (33 - Z.min 31 sf) q -> codec_total cd (33 - Z.min 31 sf) ->
  0 <= d <= 1 / 2 -> 0 <= e <= 1 -> loses d e q ->
  exists b0 blob b1 out, @decompose f32 binary32 b data null_denoiser = Ok (true, b0) /\
    serialize cd (patterns b0) sf = Ok (Some blob) /\ Forall is_byte blob /\
    (forall legacy extra, parse cd legacy (blob ++ extra) = Ok (Some b1)) /\
    @compose f32 binary32 (floats b1) 0 = Ok (true, out) /\ length out = length data /\
    forall c m o, nth_error data c = Some m -> nth_error out c = Some o ->
      sized (drows p) (dcols p) o /\ all_finite o /\
      forall i j, (i < drows p)%nat -> (j < dcols p)%nat ->
        Rabs (at_ (values o) i j - at_ (values m) i j) <=
          bnd B + step_gain u32 p ^ nsteps p * spread p (lost p u32 eta32 d e B) (lost p u32 eta32 d e B).
Proof.
  intros Hr Hpos S1 S2 S3 Hsig HL HS HB HBd Hsf HC HT Hd He Hq.
  assert (HF : Forall all_finite data) by (eapply Forall_impl; [|exact HBd]; intros m; apply bounded_finite).
  assert (HE : Forall (fun m => padded_energy p (values m) <= 2 ^ 220) data).
  { rewrite Forall_forall in *. intros m Hm. apply (bounded_energy p HA B m); auto. apply HB. }
  destruct (stored_parts p HA b data cd sf q d e Hr Hpos S1 S2 S3 Hsig HL HS HF HE Hsf HC HT Hd He Hq)
    as (b0 & blob & b1 & f & E0 & EB0 & EB & BY & PA & F1 & Hg & LAYF & FINF & NG).
  set (T := lost p u32 eta32 d e B).
  assert (P0 : 0 <= peak u32 eta32 p (passes p * nsteps p) B) by (apply (peak_0 u32 eta32 u32_pos eta32_pos p HA); [apply HB|lia]).
  assert (T0 : 0 <= T) by (unfold T, lost; assert (0 <= d * peak u32 eta32 p (passes p * nsteps p) B) by (apply Rmult_le_pos; lra); lra).
  destruct (local32_compose p HA b data (map (map (map_mat f)) (bdec b0)) B T T) as (b0' & out & D0 & Ec & Hlen & Hall); auto.
  - apply HB.
  - rewrite EB0, !map_length. reflexivity.
  - rewrite E0 in D0. inversion D0; subst b0'; clear D0.
    exists b0, blob, b1, out. split; [exact E0|]. split; [exact EB|]. split; [exact BY|]. split; [exact PA|].
    split; [rewrite F1; exact Ec|]. split; [exact Hlen|]. intros c m o Hm Ho.
    pose proof (nth_error_In _ _ Hm) as Hin. rewrite Forall_forall in HS, HBd, HF, HE.
    apply (Hall c m (@dec_of p f32 binary32 null_denoiser m) (map (map_mat f) (@dec_of p f32 binary32 null_denoiser m)) o); auto.
    + rewrite EB0, nth_error_map, Hm. reflexivity.
    + rewrite EB0, !nth_error_map, Hm. reflexivity.
    + intros k v v' Hv Hv' i x y Hx Hy. rewrite nth_error_map in Hv. rewrite map_map, nth_error_map in Hv'.
      destruct (nth_error (@dec_of p f32 binary32 null_denoiser m) k) as [w|] eqn:Hw; [|discriminate].
      cbn [option_map] in Hv, Hv'. injection Hv as <-. injection Hv' as <-.
      rewrite values_elts in Hx, Hy. unfold map_mat in Hy. cbn [elts] in Hy. rewrite map_map, nth_error_map in Hy. rewrite nth_error_map in Hx.
      destruct (nth_error (elts w) i) as [z|] eqn:Hz; [|discriminate].
      change (option_map (@B2R 24 128) (@nth_error f32 (elts w) i) = Some x) in Hx. rewrite Hz in Hx.
      cbn [option_map] in Hx, Hy. injection Hx as <-. injection Hy as <-.
      pose proof (subband32_peak m B k w (HS m Hin) HB (HBd m Hin) Hw) as PK. unfold bounded in PK. rewrite Forall_forall in PK.
      destruct (PK z (nth_error_In _ _ Hz)) as [Fz Pz]. destruct (Hg z Fz) as [_ Gz].
      assert (MO : peak u32 eta32 p (passes p * depth p k) B <= peak u32 eta32 p (passes p * nsteps p) B).
      { destruct (Z.eq_dec (wtype p) 0) as [E|E].
        - apply (acc_none p HA) in E. unfold depth, nsteps. rewrite E. simpl (Z.to_nat 0). rewrite Nat.min_0_r. lra.
        - apply (peak_mono u32 eta32 u32_pos eta32_pos p HA); [pose proof (acc_type p HA); lia|apply HB|].
          apply Nat.mul_le_mono_l. unfold depth. lia. }
      assert (G : Rabs (B2R (f z) - B2R z) <= T).
      { eapply Rle_trans; [exact Gz|]. unfold T, lost. apply Rplus_le_compat_r. apply Rmult_le_compat_l; lra. }
      destruct (k <? nsteps p * bands p)%nat; exact G.
Qed.
End F.
