(** * T_LocPrev: property C114, every single sample of a reduced picture. *)
Require Import List Bool Arith ZArith QArith Qreals Reals Lra Lia.
Require Import Flocq.Core.Core Flocq.IEEE754.BinarySingleNaN.
Require Import Verif.M_Base Verif.M_Params Verif.M_Wavelet Verif.M_Buffer Verif.M_View Verif.M_Image Verif.M_Real Verif.M_Float Verif.M_Binary32 Verif.M_Denoise
  Verif.M_Archive Verif.M_Serializer Verif.M_SfEqual.
Require Import Verif.S_Params Verif.S_Buffer Verif.S_Exact Verif.S_Round Verif.S_Stable Verif.S_Local Verif.S_Image Verif.S_Serializer Verif.S_Lossy Verif.S_Preview Verif.S_LocPrev.
Require Import Verif.P_Bin2 Verif.P_Float Verif.P_Binary32 Verif.P_Params Verif.P_Impl Verif.P_Round2 Verif.P_Stable2 Verif.P_Loc6 Verif.P_Peak2 Verif.P_Pipe2
  Verif.P_Preview Verif.P_Preview2 Verif.P_Preview3 Verif.P_LocPrev Verif.P_LocPrev2 Verif.P_LocPrev3.
Require Import Verif.T_Image Verif.T_Lossy Verif.T_Preview Verif.T_Photo.
Import ListNotations.
Open Scope R_scope.

Local Ltac consts :=
  replace (/ 2 ^ 24) with u32 by (unfold u32; rewrite (pow_IZR 2 24); reflexivity);
  replace (/ 2 ^ 150) with eta32 by (unfold eta32; rewrite (pow_IZR 2 150); reflexivity).

(** ** any arithmetic with bounded rounding errors: decompose, move details by
    at most T and approximation coefficients by at most T0, compose *)
Theorem C114_any_rounding u eta d e (A : Arith R) p k (b be : buffer R) data B T T0 :
  rounding u eta A -> 0 <= u -> 0 <= eta -> 0 <= d -> 0 <= e -> divides d e A p k ->
  accepted p -> (k <= nsteps p)%nat -> accepted (coarse p k) ->
  @reachable R A p b -> @reachable R exactR (coarse p k) be ->
  (1 <= signum p)%Z -> Z.of_nat (length data) = signum p -> Forall (shaped p) data ->
  0 <= B -> 0 <= T -> 0 <= T0 -> Forall (fun m => Forall (fun v => Rabs v <= B) (elts m)) data ->
  exists b' be', @decompose R A b data null_denoiser = Ok (true, b') /\
    @decompose R exactR be (map (padded_signal p) data) null_denoiser = Ok (true, be') /\
    forall chs : list (decomposition R), length chs = length data -> Forall (has_layout p) chs ->
      exists out, @compose R A (Buffer p chs) (Z.of_nat k) = Ok (true, out) /\ length out = length data /\
      forall c ch0 ch o chE, nth_error (bdec b') c = Some ch0 -> nth_error chs c = Some ch ->
        within_each T T0 p ch0 ch -> nth_error out c = Some o -> nth_error (bdec be') c = Some chE ->
        exists a, nth_error chE (k * bands p) = Some a /\
          sized (level_rows p k) (level_cols p k) a /\ sized (small_rows p k) (small_cols p k) o /\
          forall i j, (i < small_rows p k)%nat -> (j < small_cols p k)%nat ->
            Rabs (at_ o i j - at_ a (small_row p k i) (small_col p k j) / factor p k) <=
              preview_sample u eta d e p k (sqrt (INR (window_area p)) * B) (spread_at p k T T0).
Proof.
  intros HR Hu He Hd He' HD HA Hk HQ Hr Hre Hs HL HS HB HT HT0 HBd.
  exact (moved_sample u eta d e A HR Hu He Hd He' p HA k Hk b be data B T T0 HD HQ Hr Hre Hs HL HS HB HT HT0 HBd).
Qed.
Print Assumptions C114_any_rounding.

(** ** without rounding, DB1: only the moves count *)
Theorem C114_exact_db1 p k (b be : buffer R) data B T T0 : wtype p = 1%Z ->
  accepted p -> (k <= nsteps p)%nat -> accepted (coarse p k) ->
  @reachable R exactR p b -> @reachable R exactR (coarse p k) be ->
  (1 <= signum p)%Z -> Z.of_nat (length data) = signum p -> Forall (shaped p) data ->
  0 <= B -> 0 <= T -> 0 <= T0 -> Forall (fun m => Forall (fun v => Rabs v <= B) (elts m)) data ->
  exists b' be', @decompose R exactR b data null_denoiser = Ok (true, b') /\
    @decompose R exactR be (map (padded_signal p) data) null_denoiser = Ok (true, be') /\
    forall chs : list (decomposition R), length chs = length data -> Forall (has_layout p) chs ->
      exists out, @compose R exactR (Buffer p chs) (Z.of_nat k) = Ok (true, out) /\ length out = length data /\
      forall c ch0 ch o chE, nth_error (bdec b') c = Some ch0 -> nth_error chs c = Some ch ->
        within_each T T0 p ch0 ch -> nth_error out c = Some o -> nth_error (bdec be') c = Some chE ->
        exists a, nth_error chE (k * bands p) = Some a /\
          sized (level_rows p k) (level_cols p k) a /\ sized (small_rows p k) (small_cols p k) o /\
          forall i j, (i < small_rows p k)%nat -> (j < small_cols p k)%nat ->
            Rabs (at_ o i j - at_ a (small_row p k i) (small_col p k j) / factor p k) <=
              sqrt (INR ((nsteps p - k) * bands p) * (T * T) + T0 * T0) / factor p k.
Proof.
  intros H1 HA Hk HQ Hr Hre Hs HL HS HB HT HT0 HBd.
  destruct (C114_any_rounding 0 0 0 0 exactR p k b be data B T T0 exact_rounding (Rle_refl 0) (Rle_refl 0) (Rle_refl 0) (Rle_refl 0)
    (exact_divides p k HA) HA Hk HQ Hr Hre Hs HL HS HB HT HT0 HBd) as (b' & be' & Q1 & Q2 & Q3).
  exists b', be'. split; auto. split; auto. intros chs LC LAY. destruct (Q3 chs LC LAY) as (out & O1 & O2 & O3).
  exists out. split; auto. split; auto. intros c ch0 ch o chE N0 N1 HW N2 N3.
  destruct (O3 c ch0 ch o chE N0 N1 HW N2 N3) as (a & A1 & A2 & A3 & A4). exists a. do 3 (split; auto). intros i j Hi Hj.
  eapply Rle_trans; [apply A4; auto|]. apply Req_le. unfold preview_sample. rewrite underflow_0, !step_gain_0, H1.
  change (filter_defect 1) with 0%Q. replace (1 + Q2R 0) with 1 by (unfold Q2R; simpl; lra). rewrite !pow1.
  assert (C : INR (cone p) = 1).
  { unfold cone. rewrite H1. destruct (nsteps p =? 0)%nat; [reflexivity|]. change (2 * Z.to_nat 1 - 1)%nat with 1%nat. rewrite Nat.pow_1_l. reflexivity. }
  unfold spread_at. rewrite C, (Rmult_1_l (_ + _)). unfold Rdiv. rewrite !Rmult_1_l. ring.
Qed.
Print Assumptions C114_exact_db1.

(** ** floats: decompose and compose *)
Theorem C114_plain (sc : nat -> nat -> f32 -> f32) p k (b : buffer f32) (be : buffer R) data B :
  divides32 sc p k -> accepted p -> (k <= nsteps p)%nat -> accepted (coarse p k) ->
  @reachable f32 (with_division sc) p b -> @reachable R exactR (coarse p k) be ->
  (1 <= signum p)%Z -> Z.of_nat (length data) = signum p -> Forall (shaped p) data ->
  0 <= B <= 2 ^ 46 -> Forall (bounded B) data ->
  exists b' out be', @decompose f32 (with_division sc) b data null_denoiser = Ok (true, b') /\
    @compose f32 (with_division sc) b' (Z.of_nat k) = Ok (true, out) /\ length out = length data /\
    @decompose R exactR be (map (fun m => padded_signal p (values m)) data) null_denoiser = Ok (true, be') /\
    forall c m o chE, nth_error data c = Some m -> nth_error out c = Some o -> nth_error (bdec be') c = Some chE ->
      sized (small_rows p k) (small_cols p k) o /\ all_finite o /\
      exists a, nth_error chE (k * bands p) = Some a /\ sized (level_rows p k) (level_cols p k) a /\
        forall i j, (i < small_rows p k)%nat -> (j < small_cols p k)%nat ->
          Rabs (at_ (values o) i j - at_ a (small_row p k i) (small_col p k j) / factor p k) <=
            (INR (passes p * nsteps p) * (75 / 10 ^ 7) + / 10 ^ 6) * (sqrt (INR (window_area p)) * B) / factor p k
            + INR (nsteps p + 1) / 2 ^ 73.
Proof.
  intros HD HA Hk HQ Hr Hre Hs HL HS HB HBd.
  destruct (plain_sample sc p HA k Hk (fun _ => HD) b be data B HQ Hr Hre Hs HL HS HB HBd) as (b' & out & be' & E1 & E2 & E3 & E4 & H).
  exists b', out, be'. do 4 (split; [assumption|]). intros c m o chE N1 N2 N3. destruct (H c m o chE N1 N2 N3) as (Q1 & Q2 & (a & A1 & A2 & A3) & _).
  split; auto. split; auto. exists a. split; auto. split; auto. intros i j Hi Hj. eapply Rle_trans; [apply A3; auto|].
  eapply Rle_trans; [apply (sample_small sc p HA k Hk (fun _ => HD) _ _ i j Hi Hj); [apply Rmult_le_pos; [apply sqrt_pos|lra]|apply sqrt_pos]|].
  replace (spread_at p k 0 0) with 0 by (unfold spread_at; rewrite !Rmult_0_l, Rmult_0_r, Rplus_0_l, Rmult_0_r; symmetry; apply sqrt_0).
  rewrite Rmult_0_r, Rplus_0_r. apply Rle_refl.
Qed.
Print Assumptions C114_plain.

(** ** DB1: every sample is the mean of its block, at most 1.02e-6 per pass and
    2e-7 times the size of the window away *)
Theorem C114_means (sc : nat -> nat -> f32 -> f32) p k (b : buffer f32) data B :
  wtype p = 1%Z -> divides32 sc p k -> accepted p -> Forall (fun n => n <= 2 ^ 62)%Z (shape p) -> (k <= nsteps p)%nat ->
  @reachable f32 (with_division sc) p b ->
  (1 <= signum p)%Z -> Z.of_nat (length data) = signum p -> Forall (shaped p) data ->
  0 <= B <= 2 ^ 46 -> Forall (bounded B) data ->
  exists b' out, @decompose f32 (with_division sc) b data null_denoiser = Ok (true, b') /\
    @compose f32 (with_division sc) b' (Z.of_nat k) = Ok (true, out) /\ length out = length data /\
    forall c m o, nth_error data c = Some m -> nth_error out c = Some o ->
      sized (small_rows p k) (small_cols p k) o /\ all_finite o /\
      forall i j, (i < small_rows p k)%nat -> (j < small_cols p k)%nat ->
        Rabs (at_ (values o) i j - block_mean p (values m) k (small_row p k i) (small_col p k j)) <=
          (INR (passes p * nsteps p) * (102 / 10 ^ 8) + 2 / 10 ^ 7) * (sqrt (INR (window_area p)) * B) / factor p k
          + INR (nsteps p + 1) / 2 ^ 73.
Proof.
  intros H1 HD HA H62 Hk Hr Hs HL HS HB HBd.
  assert (HQ : accepted (coarse p k)) by (apply coarse_accepted; auto).
  assert (Hre : exists be : buffer R, @reachable R exactR (coarse p k) be) by (pose proof HQ as (Y1 & Y2 & Y3 & _); eexists; apply reach_new, new_buffer_legal; auto; lia).
  destruct Hre as (be & Hre).
  destruct (plain_sample sc p HA k Hk (fun _ => HD) b be data B HQ Hr Hre Hs HL HS HB HBd) as (b' & out & be' & E1 & E2 & E3 & E4 & H).
  exists b', out. do 3 (split; [assumption|]). intros c m o N1 N2.
  assert (NE : exists chE, nth_error (bdec be') c = Some chE).
  { rewrite (@P_Round3.dec_okA R exactR (coarse p k) HQ be) in E4; auto.
    - injection E4 as <-. cbn [bdec]. rewrite !nth_error_map, N1. cbn [option_map]. eauto.
    - rewrite map_length. exact HL.
    - apply Forall_forall. intros m' Hm. apply in_map_iff in Hm as (m'' & <- & _). apply padded_shaped; auto. }
  destruct NE as (chE & NE). destruct (H c m o chE N1 N2 NE) as (Q1 & Q2 & _ & A3).
  split; auto. split; auto. intros i j Hi Hj. eapply Rle_trans; [apply A3; auto|].
  eapply Rle_trans; [apply (sample_db1 sc p HA k Hk (fun _ => HD) _ _ H1); [apply Rmult_le_pos; [apply sqrt_pos|lra]|apply sqrt_pos]|].
  replace (spread_at p k 0 0) with 0 by (unfold spread_at; rewrite !Rmult_0_l, Rmult_0_r, Rplus_0_l, Rmult_0_r; symmetry; apply sqrt_0).
  rewrite Rmult_0_r, Rplus_0_r. apply Rle_refl.
Qed.
Print Assumptions C114_means.

(** ** thresholds, lossy storage, then a reduced picture *)
Theorem C114_stored (sc : nat -> nat -> f32 -> f32) p k (b : buffer f32) (be : buffer R) data (ta tb : f32) T cd sf q d e B :
  divides32 sc p k -> accepted p -> (k <= nsteps p)%nat -> accepted (coarse p k) ->
  @reachable f32 binary32 p b -> @reachable R exactR (coarse p k) be -> Forall (fun n => (1 <= n)%Z) (shape p) ->
  (Z.of_nat (level_rows p 0) < 2 ^ 31)%Z -> (Z.of_nat (level_cols p 0) < 2 ^ 31)%Z ->
  (Z.of_nat (level_rows p 0) * Z.of_nat (level_cols p 0) < 2 ^ 32)%Z ->
  (1 <= signum p)%Z -> Z.of_nat (length data) = signum p -> Forall (shaped p) data ->
  0 <= B <= 2 ^ 46 -> Forall (bounded B) data ->
  0 <= T -> (forall s, (s < nsteps p)%nat -> is_finite (get_threshold ta tb s) = true /\ B2R (get_threshold ta tb s) <= T) ->
  (1 <= sf)%Z -> codec_faithful cd (33 - Z.min 31 sf) q -> codec_total cd (33 - Z.min 31 sf) ->
  0 <= d <= 1 / 2 -> 0 <= e <= 1 -> loses d e q ->
  exists b0 blob b1 out be', @decompose f32 binary32 b data (threshold_denoiser ta tb) = Ok (true, b0) /\
    serialize cd (patterns b0) sf = Ok (Some blob) /\ Forall is_byte blob /\
    (forall legacy extra, parse cd legacy (blob ++ extra) = Ok (Some b1)) /\
    @compose f32 (with_division sc) (floats b1) (Z.of_nat k) = Ok (true, out) /\ length out = length data /\
    @decompose R exactR be (map (fun m => padded_signal p (values m)) data) null_denoiser = Ok (true, be') /\
    forall c m o chE, nth_error data c = Some m -> nth_error out c = Some o -> nth_error (bdec be') c = Some chE ->
      let l := lost p (/ 2 ^ 24) (/ 2 ^ 150) d e B in
      let X := ((INR (passes p * nsteps p) * (75 / 10 ^ 7) + / 10 ^ 6) * (sqrt (INR (window_area p)) * B)
                + 101 / 100 * spread_at p k (Rmax (T + e) l) l) / factor p k + INR (nsteps p + 1) / 2 ^ 73 in
      sized (small_rows p k) (small_cols p k) o /\ all_finite o /\
      (exists a, nth_error chE (k * bands p) = Some a /\ sized (level_rows p k) (level_cols p k) a /\
        forall i j, (i < small_rows p k)%nat -> (j < small_cols p k)%nat ->
          Rabs (at_ (values o) i j - at_ a (small_row p k i) (small_col p k j) / factor p k) <= X) /\
      (wtype p = 1%Z -> forall i j, (i < small_rows p k)%nat -> (j < small_cols p k)%nat ->
          Rabs (at_ (values o) i j - block_mean p (values m) k (small_row p k i) (small_col p k j)) <= X).
Proof.
  consts. intros HD HA Hk HQ Hr Hre Hpos S1 S2 S3 Hs HL HS HB HBd HT Hthr Hsf HC HCT Hd He Hq.
  destruct (stored_sample sc p HA k Hk (fun _ => HD) b be data ta tb T cd sf q d e B HQ Hr Hre Hpos S1 S2 S3 Hs HL HS HB HBd HT Hthr Hsf HC HCT Hd He Hq)
    as (b0 & blob & b1 & out & be' & E1 & E2 & E3 & E4 & E5 & E6 & E7 & H).
  exists b0, blob, b1, out, be'. do 7 (split; [assumption|]). intros c m o chE N1 N2 N3 l X.
  destruct (H c m o chE N1 N2 N3) as (Q1 & Q2 & (a & A1 & A2 & A3) & A4). fold l in A3, A4.
  assert (LE : forall i j, (i < small_rows p k)%nat -> (j < small_cols p k)%nat ->
    preview_sample u32 eta32 (/ 2 ^ 23) (/ 2 ^ 149) p k (sqrt (INR (window_area p)) * B) (spread_at p k (Rmax (T + e) l) l) <= X).
  { intros i j Hi Hj. apply (sample_small sc p HA k Hk (fun _ => HD) _ _ i j Hi Hj); [apply Rmult_le_pos; [apply sqrt_pos|lra]|apply sqrt_pos]. }
  split; auto. split; auto. split.
  - exists a. split; auto. split; auto. intros i j Hi Hj. eapply Rle_trans; [apply A3; auto|]. apply (LE i j Hi Hj).
  - intros H1 i j Hi Hj. eapply Rle_trans; [apply A4; auto|]. apply (LE i j Hi Hj).
Qed.
Print Assumptions C114_stored.

(** ** thumbnails of colour JPEG pictures, up to 6 steps of DB1: every level is
    the mean of the levels of its block rounded down, at most 1 / 2^(k+2) off *)
Theorem C114_thumbnail (sc : nat -> nat -> f32 -> f32) p (b : buffer f32) lib quality data img k :
  accepted p -> wtype p = 1%Z -> (steps p <= 6)%Z -> (k <= nsteps p)%nat -> divides32 sc p k ->
  @reachable f32 (with_division sc) p b ->
  shape p = [Z.of_nat (cwidth img); Z.of_nat (cheight img)] -> signum p = 3%Z ->
  data <> [] -> jload lib data = Some img -> cimg_wf img -> cspectrum img = 3%nat ->
  Forall (fun z => 0 <= z <= 255)%Z (cpixels img) ->
  (2 ^ k <= cwidth img)%nat -> (2 ^ k <= cheight img)%nat ->
  (Z.of_nat (cwidth img) <= 2 ^ 62)%Z -> (Z.of_nat (cheight img) <= 2 ^ 62)%Z ->
  exists im b' out img' size, rgb_decode lib of_pixel data [] 0 = Ok (true, im) /\
    @decompose f32 (with_division sc) b im null_denoiser = Ok (true, b') /\
    @compose f32 (with_division sc) b' (Z.of_nat k) = Ok (true, out) /\
    rgb_encode lib to_pixel quality out 0 = (let* bytes := jsave lib img' size quality in Ok (Some bytes)) /\
    cwidth img' = (cwidth img / 2 ^ k)%nat /\ cheight img' = (cheight img / 2 ^ k)%nat /\ cspectrum img' = 3%nat /\ cimg_wf img' /\
    forall x y c, (x < cwidth img')%nat -> (y < cheight img')%nat -> (c < 3)%nat ->
      exists z, pixel img' x y c = Some z /\
        block_mean p (plane img c) k (small_row p k y) (small_col p k x) - 1 - / 4 / 2 ^ k < IZR z <=
        block_mean p (plane img c) k (small_row p k y) (small_col p k x) + / 4 / 2 ^ k.
Proof. exact (thumbnail sc p b lib quality data img k). Qed.
Print Assumptions C114_thumbnail.

(** ** the hypotheses are met: the 7 x 5 picture of C99; the 4 x 4 picture of
    C113, whose first pixel at half the size stands for levels 0, 5, 20 and 25 *)
Example C114_case : accepted exp1 /\ accepted (coarse exp1 1) /\ (1 <= nsteps exp1)%nat /\ divides32 f32_scale exp1 1 /\
  (exists b : buffer f32, @reachable f32 (with_division f32_scale) exp1 b) /\ (exists b : buffer R, @reachable R exactR (coarse exp1 1) b) /\
  shaped exp1 exp_signal /\ bounded 64 exp_signal.
Proof.
  destruct exp_accepted as (H1 & _ & H2 & H3). destruct exp_reachable as (H4 & _ & H5). destruct exp_data as (H6 & H7 & _).
  do 7 (split; [auto using exp_divides|]).
  destruct (exp_ints_ok (seq 0 35)) as [F V]. { apply Forall_forall. intros k Hk. apply in_seq in Hk. lia. }
  unfold bounded, exp_signal; cbn [elts]. rewrite Forall_forall in F |- *. intros x Hx. split; [auto|].
  assert (HI : In (B2R x) (map (@B2R 24 128) (exp_ints (seq 0 35)))) by (apply in_map; exact Hx). rewrite V in HI.
  apply in_map_iff in HI as (n & <- & Hn). apply in_seq in Hn. rewrite Rabs_pos_eq by apply pos_INR.
  replace 64 with (INR 64) by (rewrite INR_IZR_INZ; reflexivity). apply le_INR. lia.
Qed.
Example C114_picture : (1 <= nsteps postcard_params)%nat /\ (2 ^ 1 <= cwidth postcard)%nat /\ (2 ^ 1 <= cheight postcard)%nat /\
  divides32 f32_scale postcard_params 1 /\
  block_mean postcard_params (plane postcard 0) 1 (small_row postcard_params 1 0) (small_col postcard_params 1 0) = 25 / 2.
Proof.
  split; [cbv; lia|]. do 2 (split; [cbn; lia|]). split; [apply C99_division; [apply C113_case|cbv; lia]|].
  unfold block_mean. change (is_1d postcard_params) with false. cbn -[INR IZR]. simpl. lra.
Qed.
