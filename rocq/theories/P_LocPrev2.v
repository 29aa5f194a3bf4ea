(** * P_LocPrev2: reduced pictures of stored buffers, sample by sample. *)
Require Import List Bool Arith ZArith QArith Qreals Lia Reals Lra Psatz.
Require Import ZifyBool.
Require Import Flocq.Core.Core Flocq.IEEE754.BinarySingleNaN.
Require Import Verif.M_Base Verif.M_Params Verif.M_Padding Verif.M_Wavelet Verif.M_Buffer Verif.M_Real Verif.M_Float Verif.M_Binary32 Verif.M_Denoise
  Verif.M_Equal Verif.M_Archive Verif.M_SfCodec Verif.M_SfEqual Verif.M_Serializer.
Require Import Verif.S_Params Verif.S_Padding Verif.S_Buffer Verif.S_Exact Verif.S_Round Verif.S_Stable Verif.S_Local Verif.S_Serializer Verif.S_Lossy Verif.S_Preview Verif.S_LocPrev.
Require Import Verif.P_Base Verif.P_Wavelet Verif.P_Buffer Verif.P_Impl Verif.P_Api Verif.P_Api2.
Require Import Verif.P_Sum Verif.P_L2 Verif.P_Exact Verif.P_Round2 Verif.P_Round3.
Require Import Verif.P_Stable2 Verif.P_Loc4 Verif.P_Loc5 Verif.P_Denoise Verif.P_Peak2 Verif.P_Pipe.
Require Import Verif.P_Float Verif.P_Binary32 Verif.P_Bin2 Verif.P_Bin3 Verif.P_BinMove Verif.P_BinMove2 Verif.P_Loc6 Verif.P_Preview Verif.P_Preview2 Verif.P_Preview3 Verif.P_LocPrev.
Import ListNotations.
Open Scope R_scope.

Section P.
Variable sc : nat -> nat -> f32 -> f32.
Variable p : params.
Hypothesis HA : accepted p.
Variable k : nat.
Hypothesis Hk : (k <= nsteps p)%nat.
Hypothesis HD : (0 < k)%nat -> divides32 sc p k.
Notation B32 := (with_division sc).
Notation sample_limit p k B T T0 := (preview_sample u32 eta32 (/ 2 ^ 23) (/ 2 ^ 149) p k (sqrt (INR (window_area p)) * B) (spread_at p k T T0)).

Lemma within_self T T0 (ch : list (mat R)) : 0 <= T -> 0 <= T0 -> within_each T T0 p ch ch.
Proof.
  intros HT HT0 n m m' Hm Hm' i x y Hx Hy. assert (m' = m) by congruence. subst m'. assert (y = x) by congruence. subst y.
  rewrite Rminus_diag_eq, Rabs_R0 by reflexivity. destruct (n <? nsteps p * bands p)%nat; auto.
Qed.

(** any channels near those of the signals *)
Theorem channels_sample be data (chs : list (decomposition f32)) B T T0 : accepted (coarse p k) -> @reachable R exactR (coarse p k) be ->
  (1 <= signum p)%Z -> Z.of_nat (length data) = signum p -> Forall (shaped p) data -> 0 <= B <= 2 ^ 46 -> Forall (bounded B) data ->
  0 <= T -> 0 <= T0 -> length chs = length data -> Forall (has_layout p) chs -> Forall (Forall all_finite) chs ->
  Forall (fun ch => channel_energy (map values ch) <= 2 ^ 222) chs ->
  exists out be', @compose f32 B32 (Buffer p chs) (Z.of_nat k) = Ok (true, out) /\ length out = length data /\
    @decompose R exactR be (map (fun m => padded_signal p (values m)) data) null_denoiser = Ok (true, be') /\
    forall c m ch o chE, nth_error data c = Some m -> nth_error chs c = Some ch -> nth_error out c = Some o ->
      nth_error (bdec be') c = Some chE ->
      within_each T T0 p (map values (@dec_of p f32 binary32 null_denoiser m)) (map values ch) ->
      sized (small_rows p k) (small_cols p k) o /\ all_finite o /\
      (exists a, nth_error chE (k * bands p) = Some a /\ sized (level_rows p k) (level_cols p k) a /\
        forall i j, (i < small_rows p k)%nat -> (j < small_cols p k)%nat ->
          Rabs (at_ (values o) i j - at_ a (small_row p k i) (small_col p k j) / factor p k) <= sample_limit p k B T T0) /\
      (wtype p = 1%Z -> forall i j, (i < small_rows p k)%nat -> (j < small_cols p k)%nat ->
          Rabs (at_ (values o) i j - block_mean p (values m) k (small_row p k i) (small_col p k j)) <= sample_limit p k B T T0).
Proof.
  intros HQ Hre Hsig HL HS HB HBd HT HT0 LC LAY FIN NG.
  eexists _, _. split.
  { apply (@compose_ok f32 B32 p HA (Buffer p chs)); cbn [bpar bdec].
    - reflexivity.
    - exact (eq_trans (f_equal Z.of_nat LC) HL).
    - apply Forall_forall. auto.
    - pose proof (acc_steps p HA) as St. unfold nsteps in Hk. lia. }
  rewrite map_length. cbn [bdec]. split; [exact LC|]. split.
  { apply (@dec_okA R exactR (coarse p k) HQ be); auto.
    - rewrite map_length. exact HL.
    - apply Forall_forall. intros m Hm. apply in_map_iff in Hm as (m' & <- & _). apply padded_shaped; auto. }
  intros c m ch o chE Hm Hch Ho HchE HW. cbn [bdec] in HchE. rewrite map_map in HchE.
  rewrite nth_error_map, Hm in HchE. rewrite nth_error_map, Hch in Ho. cbn [option_map] in Ho, HchE. injection Ho as <-. injection HchE as <-.
  apply nth_error_In in Hm. apply nth_error_In in Hch. rewrite Forall_forall in HS, HBd, LAY, FIN, NG.
  rewrite Nat2Z.id.
  destruct (coarse_approx p HA k Hk HQ (values m) (shaped_values p m (HS m Hm))) as (aa & Ha & Hsz & Hel).
  destruct (sample32 sc p HA k Hk HD m ch B T T0) as (Q1 & Q2 & Q3); auto; try apply HB.
  assert (Q4 : forall i j, (i < small_rows p k)%nat -> (j < small_cols p k)%nat ->
    Rabs (at_ (values (@com_of p f32 B32 k ch)) i j - at_ aa (small_row p k i) (small_col p k j) / factor p k) <= sample_limit p k B T T0).
  { intros i j Hi Hj. destruct (small_in p HA k i j Hi Hj) as [HI HJ]. rewrite (hs_level p HA) in HI. rewrite (ws_level p HA) in HJ.
    rewrite Hel by auto. apply Q3; auto. }
  split; [exact Q1|]. split; [exact Q2|]. split.
  - exists aa. auto.
  - intros Ht i j Hi Hj. rewrite <- (approx_block p k (values m) aa HA Hk Ht (shaped_values p m (HS m Hm)) Hel i j Hi Hj). auto.
Qed.

(** decompose and compose *)
Theorem plain_sample b be data B : accepted (coarse p k) -> @reachable f32 B32 p b -> @reachable R exactR (coarse p k) be ->
  (1 <= signum p)%Z -> Z.of_nat (length data) = signum p -> Forall (shaped p) data -> 0 <= B <= 2 ^ 46 -> Forall (bounded B) data ->
  exists b' out be', @decompose f32 B32 b data null_denoiser = Ok (true, b') /\
    @compose f32 B32 b' (Z.of_nat k) = Ok (true, out) /\ length out = length data /\
    @decompose R exactR be (map (fun m => padded_signal p (values m)) data) null_denoiser = Ok (true, be') /\
    forall c m o chE, nth_error data c = Some m -> nth_error out c = Some o -> nth_error (bdec be') c = Some chE ->
      sized (small_rows p k) (small_cols p k) o /\ all_finite o /\
      (exists a, nth_error chE (k * bands p) = Some a /\ sized (level_rows p k) (level_cols p k) a /\
        forall i j, (i < small_rows p k)%nat -> (j < small_cols p k)%nat ->
          Rabs (at_ (values o) i j - at_ a (small_row p k i) (small_col p k j) / factor p k) <= sample_limit p k B 0 0) /\
      (wtype p = 1%Z -> forall i j, (i < small_rows p k)%nat -> (j < small_cols p k)%nat ->
          Rabs (at_ (values o) i j - block_mean p (values m) k (small_row p k i) (small_col p k j)) <= sample_limit p k B 0 0).
Proof.
  intros HQ Hr Hre Hsig HL HS HB HBd.
  pose proof (@dec_okA f32 B32 p HA b data Hr Hsig HL HS) as E0.
  set (chs := map (@dec_of p f32 B32 null_denoiser) data) in *.
  assert (EC : chs = map (@dec_of p f32 binary32 null_denoiser) data) by reflexivity.
  assert (HB' : forall m, In m data -> shaped p m /\ all_finite m /\ padded_energy p (values m) <= 2 ^ 220).
  { rewrite Forall_forall in HS, HBd. intros m Hm. split; auto. split; [apply (bounded_finite B); auto|].
    apply (bounded_energy p HA B m); auto. apply HB. }
  destruct (channels_sample be data chs B 0 0) as (out & be' & Q1 & Q2 & Q3 & Q4); auto using Rle_refl.
  - unfold chs. apply map_length.
  - rewrite EC. apply Forall_forall. intros ch Hin. apply in_map_iff in Hin as (m & <- & _). apply dec_of_layout; auto. apply null_keepsA.
  - rewrite EC. apply Forall_forall. intros ch Hin. apply in_map_iff in Hin as (m & <- & Hm). destruct (HB' m Hm) as (W1 & W2 & W3). apply (subbands_finite p HA m); auto.
  - rewrite EC. apply Forall_forall. intros ch Hin. apply in_map_iff in Hin as (m & <- & Hm). destruct (HB' m Hm) as (W1 & W2 & W3). apply (energy_222 p HA m); auto.
  - exists (Buffer p chs), out, be'. split; [exact E0|]. split; [exact Q1|]. split; [exact Q2|]. split; [exact Q3|].
    intros c m o chE Hm Ho HE. apply (Q4 c m (@dec_of p f32 binary32 null_denoiser m) o chE); auto using within_self, Rle_refl.
    rewrite EC. apply map_nth_error. exact Hm.
Qed.

(** thresholds, lossy storage, reduced composition *)
Theorem stored_sample b be data (ta tb : f32) T cd sf q d e B : accepted (coarse p k) ->
  @reachable f32 binary32 p b -> @reachable R exactR (coarse p k) be -> Forall (fun n => (1 <= n)%Z) (shape p) ->
  (Z.of_nat (level_rows p 0) < 2 ^ 31)%Z -> (Z.of_nat (level_cols p 0) < 2 ^ 31)%Z ->
  (Z.of_nat (level_rows p 0) * Z.of_nat (level_cols p 0) < 2 ^ 32)%Z ->
  (1 <= signum p)%Z -> Z.of_nat (length data) = signum p -> Forall (shaped p) data ->
  0 <= B <= 2 ^ 46 -> Forall (bounded B) data ->
  0 <= T -> (forall s, (s < nsteps p)%nat -> is_finite (get_threshold ta tb s) = true /\ B2R (get_threshold ta tb s) <= T) ->
  (1 <= sf)%Z -> codec_faithful cd (33 - Z.min 31 sf) q -> codec_total cd (33 - Z.min 31 sf) ->
  0 <= d <= 1 / 2 -> 0 <= e <= 1 -> loses d e q ->
  exists b0 blob b1 out be', @decompose f32 binary32 b data (threshold_denoiser ta tb) = Ok (true, b0) /\
    serialize cd (patterns b0) sf = Ok (Some blob) /\ Forall is_byte blob /\
    (forall legacy extra, parse cd legacy (blob ++ extra) = Ok (Some b1)) /\
    @compose f32 B32 (floats b1) (Z.of_nat k) = Ok (true, out) /\ length out = length data /\
    @decompose R exactR be (map (fun m => padded_signal p (values m)) data) null_denoiser = Ok (true, be') /\
    forall c m o chE, nth_error data c = Some m -> nth_error out c = Some o -> nth_error (bdec be') c = Some chE ->
      let X := sample_limit p k B (Rmax (T + e) (lost p u32 eta32 d e B)) (lost p u32 eta32 d e B) in
      sized (small_rows p k) (small_cols p k) o /\ all_finite o /\
      (exists a, nth_error chE (k * bands p) = Some a /\ sized (level_rows p k) (level_cols p k) a /\
        forall i j, (i < small_rows p k)%nat -> (j < small_cols p k)%nat ->
          Rabs (at_ (values o) i j - at_ a (small_row p k i) (small_col p k j) / factor p k) <= X) /\
      (wtype p = 1%Z -> forall i j, (i < small_rows p k)%nat -> (j < small_cols p k)%nat ->
          Rabs (at_ (values o) i j - block_mean p (values m) k (small_row p k i) (small_col p k j)) <= X).
Proof.
  intros HQ Hr Hre Hpos S1 S2 S3 Hsig HL HS HB HBd T0 Hthr Hsf HC HT Hd He Hq.
  destruct (pipeline_near p HA b data ta tb T cd sf q d e B Hr Hpos S1 S2 S3 Hsig HL HS HB HBd T0 Hthr Hsf HC HT Hd He Hq)
    as (b0 & blob & b1 & chs & E0 & EB & BY & PA & F1 & LC & LAYF & FINF & NG & L0 & W).
  set (L := lost p u32 eta32 d e B) in *. set (M := Rmax (T + e) L) in *.
  assert (M0 : 0 <= M) by (eapply Rle_trans; [exact L0|apply Rmax_r]).
  destruct (channels_sample be data chs B M L) as (out & be' & Q1 & Q2 & Q3 & Q4); auto.
  exists b0, blob, b1, out, be'. do 4 (split; [assumption|]). split; [rewrite F1; exact Q1|]. split; [exact Q2|]. split; [exact Q3|].
  intros c m o chE Hm Ho HE. cbv zeta.
  destruct (nth_error chs c) as [ch|] eqn:Hch.
  - apply (Q4 c m ch o chE); auto. apply (W c m ch); auto.
  - apply nth_error_None in Hch. assert (c < length data)%nat by (apply nth_error_Some; congruence). lia.
Qed.
End P.
