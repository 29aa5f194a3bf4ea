(** * P_Pipe: decompose with thresholds, store with loss, read, compose *)
Require Import List Bool Arith ZArith QArith Qreals Lia Reals Lra.
Require Import ZifyBool.
Require Import Flocq.Core.Core Flocq.IEEE754.BinarySingleNaN.
Require Import Verif.M_Base Verif.M_Params Verif.M_Wavelet Verif.M_Buffer Verif.M_Real Verif.M_Float Verif.M_Binary32 Verif.M_Denoise
  Verif.M_Archive Verif.M_SfCodec Verif.M_SfEqual Verif.M_Serializer.
Require Import Verif.S_Params Verif.S_Buffer Verif.S_Exact Verif.S_Round Verif.S_Stable Verif.S_Local Verif.S_Serializer Verif.S_Lossy.
Require Import Verif.P_Base Verif.P_Wavelet Verif.P_Buffer Verif.P_Impl Verif.P_Api Verif.P_Api2 Verif.P_Sum Verif.P_Lin Verif.P_PR Verif.P_L2 Verif.P_Rec Verif.P_Exact
  Verif.P_Rel Verif.P_Round Verif.P_Round2 Verif.P_Round3 Verif.P_Float Verif.P_Binary32 Verif.P_Bin2 Verif.P_Bin3 Verif.P_Stable Verif.P_Stable2 Verif.P_Dual3 Verif.P_BinMove Verif.P_BinMove2 Verif.P_DenoiseF Verif.P_Loc4 Verif.P_Loc5 Verif.P_Loc6 Verif.P_Lossy2 Verif.P_Denoise Verif.P_Lossy Verif.P_Dual2 Verif.P_Blob Verif.P_Acc Verif.P_Peak Verif.P_Peak2.
Import ListNotations.
Open Scope R_scope.

Section F.
Variable p : params.
Hypothesis HA : accepted p.

(** what is stored, and what comes back *)
Lemma denoised_parts b data den cd sf q d e : keeps_shape den -> keeps_or_zeroes den ->
  @reachable f32 binary32 p b -> Forall (fun n => (1 <= n)%Z) (shape p) ->
  (Z.of_nat (level_rows p 0) < 2 ^ 31)%Z -> (Z.of_nat (level_cols p 0) < 2 ^ 31)%Z ->
  (Z.of_nat (level_rows p 0) * Z.of_nat (level_cols p 0) < 2 ^ 32)%Z ->
  (1 <= signum p)%Z -> Z.of_nat (length data) = signum p -> Forall (shaped p) data ->
  Forall all_finite data -> Forall (fun m => padded_energy p (values m) <= 2 ^ 220) data ->
  (1 <= sf)%Z -> codec_faithful cd (33 - Z.min 31 sf) q -> codec_total cd (33 - Z.min 31 sf) ->
  0 <= d <= 1 / 2 -> 0 <= e <= 1 -> loses d e q ->
  exists b0 blob b1 f, @decompose f32 binary32 b data den = Ok (true, b0) /\
    bdec b0 = map (@dec_of p f32 binary32 den) data /\
    serialize cd (patterns b0) sf = Ok (Some blob) /\ Forall is_byte blob /\
    (forall legacy extra, parse cd legacy (blob ++ extra) = Ok (Some b1)) /\
    floats b1 = Buffer p (map (map (map_mat f)) (bdec b0)) /\
    (forall x : f32, is_finite x = true -> is_finite (f x) = true /\ Rabs (B2R (f x) - B2R x) <= d * Rabs (B2R x) + e) /\
    Forall (has_layout p) (map (map (map_mat f)) (bdec b0)) /\
    Forall (Forall all_finite) (map (map (map_mat f)) (bdec b0)) /\
    Forall (fun ch => channel_energy (map values ch) <= 2 ^ 222) (map (map (map_mat f)) (bdec b0)).
Proof.
  intros HK Hkz Hr Hpos S1 S2 S3 Hsig HL HS HF HE Hsf HC HT Hd He Hq.
  set (ch0s := map (@dec_of p f32 binary32 den) data).
  set (b0 := Buffer p ch0s).
  assert (E0 : @decompose f32 binary32 b data den = Ok (true, b0)) by (apply (safe_ok p); auto).
  assert (LAY : forall ch, In ch ch0s -> has_layout p ch).
  { intros ch Hin. apply in_map_iff in Hin as (m & <- & _). apply dec_of_layout; auto. }
  destruct (patterns_storable p HA b0 Hpos S1 S2 S3 eq_refl) as (P1 & P2 & P3 & P4); auto.
  { cbn [bdec b0]. unfold ch0s. rewrite map_length. exact HL. }
  destruct (compressed cd (fun _ _ => Throw) (patterns b0) sf q P1 Hsf P2 P3 HC) as (_ & HX).
  destruct (HX P4 HT) as (blob & EB).
  set (f := fun x => f32_of_word (clean q (pattern x))).
  set (b1 := map_buffer (clean q) (patterns b0)).
  assert (F1 : floats b1 = Buffer p (map (map (map_mat f)) ch0s)).
  { unfold floats, b1, patterns, map_buffer. cbn [bpar bdec b0]. f_equal. rewrite !map_map. apply map_ext. intros ch.
    rewrite !map_map. apply map_ext. intros m. unfold map_mat. cbn [rows cols elts]. f_equal. rewrite !map_map. reflexivity. }
  assert (Hg : forall x : f32, is_finite x = true -> is_finite (f x) = true /\ Rabs (B2R (f x) - B2R x) <= d * Rabs (B2R x) + e).
  { intros x Hx. destruct (clean_loses d e q ltac:(lra) ltac:(lra) Hq (pattern x)) as (G1 & G2).
    - unfold finite_word. rewrite pattern_back. exact Hx.
    - unfold number in G2. rewrite pattern_back in G2. split; [exact G1|exact G2]. }
  rewrite Forall_forall in HS, HF, HE.
  assert (KE : forall m, In m data -> Forall2 (fun d d' => kept (elts d) (elts d')) (@dec_of p f32 binary32 null_denoiser m) (@dec_of p f32 binary32 den m))
    by (intros m Hm; apply (denoised_kept p HA den m); auto).
  assert (FIN : forall m, In m data -> Forall all_finite (@dec_of p f32 binary32 den m)).
  { intros m Hm. pose proof (subbands_finite p HA m (HS m Hm) (HF m Hm) (HE m Hm)) as FIN.
    pose proof (KE m Hm) as F2. induction F2 as [|x y l l' H _ IH]; constructor; inversion FIN; subst; auto. eapply kept_finite; eauto. }
  assert (CNT : forall m, In m data -> coefficient_count (@dec_of p f32 binary32 den m) = (level_rows p 0 * level_cols p 0)%nat).
  { intros m Hm. apply count_layout. apply LAY. apply in_map. exact Hm. }
  assert (CB : sqrt (INR (level_rows p 0 * level_cols p 0)) <= bp 16).
  { apply bp_sqrt. change (2 * 16)%Z with 32%Z. change (bp 32) with (IZR (2 ^ 32)). rewrite INR_IZR_INZ. apply IZR_le. lia. }
  assert (NG : forall m, In m data -> channel_energy (map values (map (map_mat f) (@dec_of p f32 binary32 den m))) <= 2 ^ 222).
  { intros m Hm. destruct (map_moves_channel f d e ltac:(lra) ltac:(lra) Hg _ (FIN m Hm)) as (_ & M2 & _).
    rewrite (CNT m Hm) in M2. destruct (stored_energy p HA m) as (_ & M3); auto.
    pose proof (sqrt_le_1_alt _ _ (kept_energies _ _ (KE m Hm))) as M4.
    assert (M3' : sqrt (channel_energy (map values (@dec_of p f32 binary32 den m))) <= 101 / 100 * bp 110 + 1) by lra.
    pose proof (sqrt_pos (channel_energy (map values (@dec_of p f32 binary32 den m)))) as N0.
    pose proof (sqrt_pos (INR (level_rows p 0 * level_cols p 0))) as N1.
    assert (B : sqrt (channel_energy (map values (map (map_mat f) (@dec_of p f32 binary32 den m)))) <= bp 111).
    { eapply Rle_trans; [exact M2|].
      assert (bp 111 = 2 * bp 110) by (change 111%Z with (1 + 110)%Z; rewrite bpow_plus; reflexivity).
      assert (bp 20 <= bp 110) by (apply bpow_le; lia).
      assert (bp 110 = 2 ^ 94 * bp 16) by (change 110%Z with (94 + 16)%Z; rewrite bpow_plus; f_equal; rewrite <- bp_nat; reflexivity).
      assert (X1 : (1 + d) * sqrt (channel_energy (map values (@dec_of p f32 binary32 den m))) <= 3 / 2 * (101 / 100 * bp 110 + 1)).
      { apply Rmult_le_compat; auto; lra. }
      assert (X2 : e * sqrt (INR (level_rows p 0 * level_cols p 0)) <= 1 * bp 16) by (apply Rmult_le_compat; auto; lra).
      assert (bp 20 = 16 * bp 16) by (change 20%Z with (4 + 16)%Z; rewrite bpow_plus; reflexivity).
      assert (4 <= bp 16) by (change 4 with (bp 2); apply bpow_le; lia).
      assert (bp 24 <= bp 110) by (apply bpow_le; lia).
      assert (bp 24 = 256 * bp 16) by (change 24%Z with (8 + 16)%Z; rewrite bpow_plus; reflexivity).
      lra. }
    rewrite <- (sqrt_sqrt _ (channel_energy_ge0 _)).
    change 222%nat with (111 + 111)%nat. rewrite pow_add. rewrite <- bp_nat. change (Z.of_nat 111) with 111%Z.
    apply Rmult_le_compat; auto; apply sqrt_pos. }
  exists b0, blob, b1, f. split; [exact E0|]. split; [reflexivity|]. split; [exact EB|].
  split; [apply (proj1 (compressed cd (fun _ _ => Throw) (patterns b0) sf q P1 Hsf P2 P3 HC) blob EB)|].
  split. { intros legacy extra. apply (proj1 (compressed cd legacy (patterns b0) sf q P1 Hsf P2 P3 HC) blob EB). }
  split; [exact F1|]. split; [exact Hg|].
  split; [|split]; apply Forall_forall; intros ch Hin; apply in_map_iff in Hin as (c & <- & Hin).
  - apply map_layout. auto.
  - apply in_map_iff in Hin as (m & <- & Hm). apply (map_moves_channel f d e ltac:(lra) ltac:(lra) Hg _ (FIN m Hm)).
  - apply in_map_iff in Hin as (m & <- & Hm). auto.
Qed.
(** one sample *)
Notation bnd B := (float_rel u32 p * (sqrt (INR (window_area p)) * B) + underflow u32 eta32 p).
(** what is read back *)
Theorem pipeline_near b data (ta tb : f32) T cd sf q d e B :
  @reachable f32 binary32 p b -> Forall (fun n => (1 <= n)%Z) (shape p) ->
  (Z.of_nat (level_rows p 0) < 2 ^ 31)%Z -> (Z.of_nat (level_cols p 0) < 2 ^ 31)%Z ->
  (Z.of_nat (level_rows p 0) * Z.of_nat (level_cols p 0) < 2 ^ 32)%Z ->
  (1 <= signum p)%Z -> Z.of_nat (length data) = signum p -> Forall (shaped p) data ->
  0 <= B <= 2 ^ 46 -> Forall (bounded B) data ->
  0 <= T -> (forall s, (s < nsteps p)%nat -> is_finite (get_threshold ta tb s) = true /\ B2R (get_threshold ta tb s) <= T) ->
  (1 <= sf)%Z -> codec_faithful cd (33 - Z.min 31 sf) q -> codec_total cd (33 - Z.min 31 sf) ->
  0 <= d <= 1 / 2 -> 0 <= e <= 1 -> loses d e q ->
  exists b0 blob b1 chs, @decompose f32 binary32 b data (threshold_denoiser ta tb) = Ok (true, b0) /\
    serialize cd (patterns b0) sf = Ok (Some blob) /\ Forall is_byte blob /\
    (forall legacy extra, parse cd legacy (blob ++ extra) = Ok (Some b1)) /\
    floats b1 = Buffer p chs /\ length chs = length data /\ Forall (has_layout p) chs /\ Forall (Forall all_finite) chs /\
    Forall (fun ch => channel_energy (map values ch) <= 2 ^ 222) chs /\
    0 <= lost p u32 eta32 d e B /\
    forall c m ch, nth_error data c = Some m -> nth_error chs c = Some ch ->
      within_each (Rmax (T + e) (lost p u32 eta32 d e B)) (lost p u32 eta32 d e B) p
        (map values (@dec_of p f32 binary32 null_denoiser m)) (map values ch).
Proof.
  intros Hr Hpos S1 S2 S3 Hsig HL HS HB HBd T0 Hthr Hsf HC HT Hd He Hq.
  assert (HF : Forall all_finite data) by (eapply Forall_impl; [|exact HBd]; intros m; apply bounded_finite).
  assert (HE : Forall (fun m => padded_energy p (values m) <= 2 ^ 220) data).
  { rewrite Forall_forall in *. intros m Hm. apply (bounded_energy p HA B m); auto. apply HB. }
  set (den := threshold_denoiser ta tb).
  assert (KS : keeps_shape den) by apply P_Denoise.threshold_keeps. assert (KK : keeps_or_zeroes den) by apply threshold_kept.
  destruct (denoised_parts b data den cd sf q d e KS KK Hr Hpos S1 S2 S3 Hsig HL HS HF HE Hsf HC HT Hd He Hq)
    as (b0 & blob & b1 & f & E0 & EB0 & EB & BY & PA & F1 & Hg & LAYF & FINF & NG).
  set (L := lost p u32 eta32 d e B). set (M := Rmax (T + e) L).
  assert (P0 : 0 <= peak u32 eta32 p (passes p * nsteps p) B) by (apply (peak_0 u32 eta32 u32_pos eta32_pos p HA); [apply HB|lia]).
  assert (L0 : 0 <= L) by (unfold L, lost; assert (0 <= d * peak u32 eta32 p (passes p * nsteps p) B) by (apply Rmult_le_pos; lra); lra).
  assert (M0 : 0 <= M) by (eapply Rle_trans; [exact L0|apply Rmax_r]).
  set (b00 := Buffer p (map (@dec_of p f32 binary32 null_denoiser) data)).
  assert (D0 : @decompose f32 binary32 b data null_denoiser = Ok (true, b00)) by (apply (@dec_okA f32 binary32 p HA b data); auto).
  exists b0, blob, b1, (map (map (map_mat f)) (bdec b0)). do 5 (split; [assumption|]). split; [rewrite EB0, !map_length; reflexivity|].
  do 4 (split; [assumption|]). intros c m ch Hm Hch.
  rewrite EB0, !nth_error_map, Hm in Hch. cbn [option_map] in Hch. injection Hch as <-.
    pose proof (nth_error_In _ _ Hm) as Hin.
    assert (B00 : bdec b00 = map (@dec_of p f32 binary32 null_denoiser) data) by reflexivity.
    assert (N00 : nth_error (bdec b00) c = Some (@dec_of p f32 binary32 null_denoiser m)) by (rewrite B00; apply map_nth_error; auto).
    assert (N0 : nth_error (bdec b0) c = Some (@dec_of p f32 binary32 den m)) by (rewrite EB0; apply map_nth_error; auto).
    pose proof HF as HF'. pose proof HE as HE'. pose proof HS as HS'. pose proof HBd as HBd'.
    rewrite Forall_forall in HF', HE', HS', HBd'.
    pose proof (threshold_within32 p HA b b00 b0 data ta tb T c m _ _ Hr T0 Hthr Hsig HL HS Hm (HF' m Hin) (HE' m Hin) D0 E0 N00 N0) as W.
    pose proof (denoised_kept p HA den m KS KK (HS' m Hin) (HF' m Hin) (HE' m Hin)) as KE.
    intros k v v' Hv Hv' i x y Hx Hy. rewrite nth_error_map in Hv. rewrite map_map, nth_error_map in Hv'.
    destruct (nth_error (@dec_of p f32 binary32 null_denoiser m) k) as [w|] eqn:Hw; [|discriminate].
    destruct (nth_error (@dec_of p f32 binary32 den m) k) as [w'|] eqn:Hw'; [|discriminate].
    cbn [option_map] in Hv, Hv'. injection Hv as <-. injection Hv' as <-.
    rewrite values_elts in Hx, Hy. unfold map_mat in Hy. cbn [elts] in Hy. rewrite map_map, nth_error_map in Hy. rewrite nth_error_map in Hx.
    change (option_map (@B2R 24 128) (@nth_error f32 (elts w) i) = Some x) in Hx.
    destruct (@nth_error f32 (elts w) i) as [z|] eqn:Hz; [|discriminate].
    destruct (nth_error (elts w') i) as [z'|] eqn:Hz'; [|discriminate].
    cbn [option_map] in Hx, Hy. injection Hx as <-. injection Hy as <-.
    pose proof (subband32_peak p HA m B k w (HS' m Hin) HB (HBd' m Hin) Hw) as PK. unfold bounded in PK. rewrite Forall_forall in PK.
    destruct (PK z (nth_error_In _ _ Hz)) as [Fz Pz].
    assert (MO : peak u32 eta32 p (passes p * depth p k) B <= peak u32 eta32 p (passes p * nsteps p) B).
    { destruct (Z.eq_dec (wtype p) 0) as [E|E].
      - apply (acc_none p HA) in E. unfold depth, nsteps. rewrite E. simpl (Z.to_nat 0). rewrite Nat.min_0_r. lra.
      - apply (peak_mono u32 eta32 u32_pos eta32_pos p HA); [pose proof (acc_type p HA); lia|apply HB|].
        apply Nat.mul_le_mono_l. unfold depth. lia. }
    assert (KZ : z' = z \/ z' = B754_zero false).
    { assert (G : forall n (l1 l2 : list (mat f32)) (a a' : mat f32), Forall2 (fun d d' => kept (elts d) (elts d')) l1 l2 -> nth_error l1 n = Some a -> nth_error l2 n = Some a' -> kept (elts a) (elts a')).
      { intros n l1 l2 a a' F2. revert n. induction F2 as [|s s' t t' H _ IH]; intros [|n] H1 H2; cbn in H1, H2; try discriminate; [congruence|eauto]. }
      specialize (G k _ _ w w' KE Hw Hw'). unfold kept in G. clear -G Hz Hz'.
      revert i Hz Hz'. induction G as [|s s' t t' H _ IH]; intros [|i] H1 H2; cbn in H1, H2; try discriminate; [|eauto].
      injection H1 as <-. injection H2 as <-. exact H. }
    specialize (W k (values w) (values w')). rewrite !nth_error_map, Hw, Hw' in W. specialize (W eq_refl eq_refl i (B2R z) (B2R z')).
    rewrite !values_elts in W. rewrite !(nth_error_map _ _ (elts _)) in W.
    change (@nth_error (binary_float 24 128) (elts w) i) with (@nth_error f32 (elts w) i) in W.
    change (@nth_error (binary_float 24 128) (elts w') i) with (@nth_error f32 (elts w') i) in W.
    rewrite Hz, Hz' in W. specialize (W eq_refl eq_refl).
    assert (G : z' = z -> Rabs (B2R (f z') - B2R z) <= L).
    { intros ->. destruct (Hg z Fz) as [_ Gz]. eapply Rle_trans; [exact Gz|]. unfold L, lost. apply Rplus_le_compat_r. apply Rmult_le_compat_l; lra. }
    assert (G0 : Rabs (B2R (f (B754_zero false))) <= e).
    { destruct (Hg (B754_zero false) eq_refl) as [_ Gz]. cbn [B2R] in Gz. rewrite Rabs_R0, Rmult_0_r, Rminus_0_r in Gz. lra. }
    destruct (k <? nsteps p * bands p)%nat.
    + destruct KZ as [KZ|KZ]; [eapply Rle_trans; [apply G, KZ|apply Rmax_r]|].
      subst z'. cbn [B2R] in W. eapply Rle_trans; [|apply Rmax_l]. rewrite Rminus_0_l, Rabs_Ropp in W.
      unfold Rminus. eapply Rle_trans; [apply Rabs_triang|]. rewrite Rabs_Ropp. lra.
    + destruct KZ as [KZ|KZ]; [apply G, KZ|]. subst z'. cbn [B2R] in W. rewrite Rminus_0_l, Rabs_Ropp in W.
      assert (Z : B2R z = 0) by (destruct (Req_dec (B2R z) 0) as [Z|Z]; [exact Z|pose proof (Rabs_pos_lt _ Z); lra]).
      rewrite Z, Rminus_0_r. eapply Rle_trans; [exact G0|]. unfold L, lost. assert (0 <= d * peak u32 eta32 p (passes p * nsteps p) B) by (apply Rmult_le_pos; lra). lra.
Qed.
Theorem pipeline_samples b data (ta tb : f32) T cd sf q d e B :
  @reachable f32 binary32 p b -> Forall (fun n => (1 <= n)%Z) (shape p) ->
  (Z.of_nat (level_rows p 0) < 2 ^ 31)%Z -> (Z.of_nat (level_cols p 0) < 2 ^ 31)%Z ->
  (Z.of_nat (level_rows p 0) * Z.of_nat (level_cols p 0) < 2 ^ 32)%Z ->
  (1 <= signum p)%Z -> Z.of_nat (length data) = signum p -> Forall (shaped p) data ->
  0 <= B <= 2 ^ 46 -> Forall (bounded B) data ->
  0 <= T -> (forall s, (s < nsteps p)%nat -> is_finite (get_threshold ta tb s) = true /\ B2R (get_threshold ta tb s) <= T) ->
  (1 <= sf)%Z -> codec_faithful cd (33 - Z.min 31 sf) q -> codec_total cd (33 - Z.min 31 sf) ->
  0 <= d <= 1 / 2 -> 0 <= e <= 1 -> loses d e q ->
  exists b0 blob b1 out, @decompose f32 binary32 b data (threshold_denoiser ta tb) = Ok (true, b0) /\
    serialize cd (patterns b0) sf = Ok (Some blob) /\ Forall is_byte blob /\
    (forall legacy extra, parse cd legacy (blob ++ extra) = Ok (Some b1)) /\
    @compose f32 binary32 (floats b1) 0 = Ok (true, out) /\ length out = length data /\
    forall c m o, nth_error data c = Some m -> nth_error out c = Some o ->
      sized (drows p) (dcols p) o /\ all_finite o /\
      forall i j, (i < drows p)%nat -> (j < dcols p)%nat ->
        Rabs (at_ (values o) i j - at_ (values m) i j) <=
          bnd B + step_gain u32 p ^ nsteps p * spread p (Rmax (T + e) (lost p u32 eta32 d e B)) (lost p u32 eta32 d e B).
Proof.
  intros Hr Hpos S1 S2 S3 Hsig HL HS HB HBd T0 Hthr Hsf HC HT Hd He Hq.
  destruct (pipeline_near b data ta tb T cd sf q d e B Hr Hpos S1 S2 S3 Hsig HL HS HB HBd T0 Hthr Hsf HC HT Hd He Hq)
    as (b0 & blob & b1 & chs & E0 & EB & BY & PA & F1 & LC & LAYF & FINF & NG & L0 & W).
  set (L := lost p u32 eta32 d e B) in *. set (M := Rmax (T + e) L) in *.
  assert (M0 : 0 <= M) by (eapply Rle_trans; [exact L0|apply Rmax_r]).
  destruct (local32_compose p HA b data chs B M L) as (b00 & out & D0 & Ec & Hlen & Hall); auto; [apply HB|].
  exists b0, blob, b1, out. do 4 (split; [assumption|]). split; [rewrite F1; exact Ec|]. split; [exact Hlen|]. intros c m o Hm Ho.
  pose proof (@dec_okA f32 binary32 p HA b data Hr Hsig HL HS) as E00.
  assert (B00 : bdec b00 = map (@dec_of p f32 binary32 null_denoiser) data) by (rewrite D0 in E00; inversion E00; reflexivity).
  assert (N00 : nth_error (bdec b00) c = Some (@dec_of p f32 binary32 null_denoiser m)) by (rewrite B00; apply map_nth_error; auto).
  destruct (nth_error chs c) as [ch|] eqn:Hch.
  - apply (Hall c m (@dec_of p f32 binary32 null_denoiser m) ch o); auto. apply (W c m ch); auto.
  - apply nth_error_None in Hch. assert (c < length data)%nat by (apply nth_error_Some; congruence). lia.
Qed.
End F.
