(** * P_LocPrev3: reduced pictures in any arithmetic; thumbnails of JPEG pictures. *)
Require Import List Bool Arith ZArith QArith Qreals Lia Reals Lra Psatz.
Require Import ZifyBool.
Require Import Flocq.Core.Core Flocq.IEEE754.BinarySingleNaN.
Require Import Verif.M_Base Verif.M_Params Verif.M_Padding Verif.M_Wavelet Verif.M_Buffer Verif.M_View Verif.M_Image Verif.M_Real Verif.M_Float Verif.M_Binary32.
Require Import Verif.S_Params Verif.S_Padding Verif.S_Buffer Verif.S_Exact Verif.S_Round Verif.S_Stable Verif.S_Local Verif.S_Image Verif.S_Preview Verif.S_LocPrev.
Require Import Verif.P_Base Verif.P_Wavelet Verif.P_Buffer Verif.P_Impl Verif.P_Params Verif.P_Api Verif.P_Api2 Verif.P_Image.
Require Import Verif.P_Sum Verif.P_L2 Verif.P_Exact Verif.P_Round2 Verif.P_Round3.
Require Import Verif.P_Stable Verif.P_Stable2 Verif.P_Loc4 Verif.P_Loc5 Verif.P_Peak2.
Require Import Verif.P_Float Verif.P_Binary32 Verif.P_Bin2 Verif.P_Bin3 Verif.P_BinMove Verif.P_BinMove2 Verif.P_Loc6 Verif.P_Loc7 Verif.P_Preview Verif.P_Preview2 Verif.P_Preview3 Verif.P_LocPrev Verif.P_LocPrev2.
Import ListNotations.
Open Scope R_scope.

Section A.
Variables (u eta d e : R) (A : Arith R).
Hypothesis (HR : rounding u eta A) (Hu : 0 <= u) (Heta : 0 <= eta) (Hd : 0 <= d) (He : 0 <= e).
Variable p : params.
Hypothesis HA : accepted p.
Variable k : nat.
Hypothesis Hk : (k <= nsteps p)%nat.

(** decompose, move the coefficients, compose *)
Theorem moved_sample b be data B T T0 : divides d e A p k -> accepted (coarse p k) ->
  @reachable R A p b -> @reachable R exactR (coarse p k) be ->
  (1 <= signum p)%Z -> Z.of_nat (length data) = signum p -> Forall (shaped p) data ->
  0 <= B -> 0 <= T -> 0 <= T0 -> Forall (fun m => Forall (fun v => Rabs v <= B) (elts m)) data ->
  exists b' be', @decompose R A b data null_denoiser = Ok (true, b') /\
    @decompose R exactR be (map (padded_signal p) data) null_denoiser = Ok (true, be') /\
    forall chs : list (decomposition R), length chs = length data -> Forall (has_layout p) chs ->
      exists out, @compose R A (Buffer p chs) (Z.of_nat k) = Ok (true, out) /\ length out = length data /\
      forall c ch0 ch o chE, nth_error (bdec b') c = Some ch0 -> nth_error chs c = Some ch ->
        within_each T T0 p ch0 ch -> nth_error out c = Some o -> nth_error (bdec be') c = Some chE ->
        exists a, nth_error chE (k * bands p) = Some a /\
          sized (level_rows p k) (level_cols p k) a /\ sized (small_rows p k) (small_cols p k) o /\
          forall i j, (i < small_rows p k)%nat -> (j < small_cols p k)%nat ->
            Rabs (at_ o i j - at_ a (small_row p k i) (small_col p k j) / factor p k) <=
              preview_sample u eta d e p k (sqrt (INR (window_area p)) * B) (spread_at p k T T0).
Proof.
  intros HD HQ Hr Hre Hsig HL HS HB HT HT0 HBd.
  eexists _, _. split; [apply (@dec_okA R A p HA b data); auto|]. split.
  { apply (@dec_okA R exactR (coarse p k) HQ be); auto.
    - rewrite map_length. auto.
    - apply Forall_forall. intros m Hm. apply in_map_iff in Hm as (m' & <- & _). apply padded_shaped; auto. }
  intros chs LC LAY. eexists. split.
  { apply (@compose_ok R A p HA (Buffer p chs)); cbn [bpar bdec].
    - reflexivity.
    - exact (eq_trans (f_equal Z.of_nat LC) HL).
    - apply Forall_forall. auto.
    - pose proof (acc_steps p HA) as St. unfold nsteps in Hk. lia. }
  rewrite map_length. cbn [bdec]. split; [exact LC|]. intros c ch0 ch o chE H0 Hch HW Ho HE.
  cbn [bdec] in H0, Ho, HE. rewrite map_map in HE. rewrite nth_error_map in H0, HE. rewrite nth_error_map, Hch in Ho.
  destruct (nth_error data c) as [m|] eqn:Hm; cbn [option_map] in H0, Ho, HE; [|discriminate].
  injection H0 as <-. injection Ho as <-. injection HE as <-. rewrite Nat2Z.id.
  apply nth_error_In in Hm. apply nth_error_In in Hch. rewrite Forall_forall in HS, HBd, LAY.
  destruct (coarse_approx p HA k Hk HQ m (HS m Hm)) as (aa & Ha & Hsz & Hel).
  exists aa. split; [exact Ha|]. split; [exact Hsz|]. split; [apply com_sized; auto|]. intros i j Hi Hj.
  destruct (small_in p HA k i j Hi Hj) as [HI HJ]. rewrite (hs_level p HA) in HI. rewrite (ws_level p HA) in HJ.
  rewrite Hel by auto. apply (sample_near u eta d e A HR Hu Heta Hd p HA k Hk m ch B T T0); auto.
  rewrite com_elem by auto. apply (scaled_elem d e A Hd He p k); auto.
Qed.
End A.

(** ** thumbnails *)
Lemma level_between x M dl : is_finite x = true -> 0 <= M <= 255 -> Rabs (255 * B2R x - M) <= dl ->
  M - 1 - dl - / 65536 < IZR (to_pixel x) <= M + dl + / 65536.
Proof.
  intros Fx HM H. pose proof (to_pixel_range x) as Rg. assert (b16 : bpow radix2 (-16) = / 65536) by reflexivity.
  assert (D0 : 0 <= dl) by (eapply Rle_trans; [apply Rabs_pos|exact H]). apply Rabs_le_inv in H.
  assert (Z0 : 0 <= IZR (to_pixel x) <= 255) by (split; apply IZR_le; lia).
  destruct (Rlt_le_dec (B2R x) 0) as [L|L].
  - pose proof (to_pixel_mono x (of_pixel 0)) as Mo. rewrite pixel_back in Mo by lia.
    destruct (of_pixel_close 0 ltac:(lia)) as (F0 & (P0 & _) & _). specialize (Mo Fx F0 ltac:(lra)).
    apply IZR_le in Mo. lra.
  - destruct (Rlt_le_dec 1 (B2R x)) as [U|U].
    + pose proof (to_pixel_mono (of_pixel 255) x) as Mo. rewrite pixel_back in Mo by lia.
      destruct (of_pixel_close 255 ltac:(lia)) as (F0 & (_ & P0) & _). specialize (Mo F0 Fx ltac:(lra)).
      apply IZR_le in Mo. lra.
    + destruct (to_pixel_close x Fx (conj L U)) as [Q1 Q2]. lra.
Qed.

Section T.
Variable p : params.
Hypothesis HA : accepted p.

(** means of close signals are close *)
Lemma mean_of m k i j (f : R -> Prop) : (forall a b, f a -> f b -> forall t, 0 <= t <= 1 -> f (t * a + (1 - t) * b)) ->
  (forall i j, f (padded_at p m i j)) -> f (block_mean p m k i j).
Proof.
  intros HC HF. unfold block_mean. set (w := if is_1d p then 1%nat else (2 ^ k)%nat).
  assert (W0 : (0 < w)%nat) by (unfold w; pose proof (Nat.pow_nonzero 2 k); destruct (is_1d p); lia).
  assert (K0 : (0 < 2 ^ k)%nat) by (pose proof (Nat.pow_nonzero 2 k); lia).
  assert (AV : forall n (h : nat -> R), (0 < n)%nat -> (forall v, f (h v)) -> f (rsum n h / INR n)).
  { intros n h Hn Hh. induction n as [|n IH]; [lia|]. destruct n as [|n].
    - cbn [rsum]. replace ((0 + h 0%nat) / INR 1) with (h 0%nat) by (cbn [INR]; field). auto.
    - assert (I1 : 0 < INR (S n)) by (apply lt_0_INR; lia). assert (I2 : INR (S (S n)) = INR (S n) + 1) by (rewrite S_INR; reflexivity).
      change (rsum (S (S n)) h) with (rsum (S n) h + h (S n)). rewrite I2.
      replace ((rsum (S n) h + h (S n)) / (INR (S n) + 1)) with
        ((INR (S n) / (INR (S n) + 1)) * (rsum (S n) h / INR (S n)) + (1 - INR (S n) / (INR (S n) + 1)) * h (S n)) by (field; lra).
      apply HC; auto; [apply IH; lia|]. split.
      + apply Rmult_le_pos; [lra|]. apply Rlt_le, Rinv_0_lt_compat. lra.
      + apply Rmult_le_reg_r with (INR (S n) + 1); [lra|]. unfold Rdiv. rewrite Rmult_assoc, Rinv_l by lra. lra. }
  rewrite total_rsum. rewrite mult_INR.
  assert (N1 : INR (2 ^ k) <> 0) by (apply not_0_INR; lia). assert (N2 : INR w <> 0) by (apply not_0_INR; lia).
  replace (rsum (2 ^ k) (fun a => total w (fun v => padded_at p m (i * 2 ^ k + a) (j * w + v))) / (INR (2 ^ k) * INR w))
    with (rsum (2 ^ k) (fun a => rsum w (fun v => padded_at p m (i * 2 ^ k + a) (j * w + v)) / INR w) / INR (2 ^ k)).
  - apply AV; auto.
  - assert (EQ : rsum (2 ^ k) (fun a => total w (fun v => padded_at p m (i * 2 ^ k + a) (j * w + v))) =
      rsum (2 ^ k) (fun a => rsum w (fun v => padded_at p m (i * 2 ^ k + a) (j * w + v)))) by (apply rsum_ext; intros; apply total_rsum).
    rewrite EQ. unfold Rdiv. rewrite rsum_scal_r. rewrite Rinv_mult by auto. ring.
Qed.
Lemma mean_lin m m' (s : R) k i j dl : 0 <= dl ->
  (forall i j, Rabs (s * padded_at p m i j - padded_at p m' i j) <= dl) ->
  Rabs (s * block_mean p m k i j - block_mean p m' k i j) <= dl.
Proof.
  intros D0 H. unfold block_mean. set (w := if is_1d p then 1%nat else (2 ^ k)%nat).
  assert (W0 : (0 < w)%nat) by (unfold w; pose proof (Nat.pow_nonzero 2 k); destruct (is_1d p); lia).
  assert (K0 : (0 < 2 ^ k)%nat) by (pose proof (Nat.pow_nonzero 2 k); lia).
  assert (N : 0 < INR (2 ^ k * w)) by (apply lt_0_INR; nia).
  assert (EQ : forall m, total (2 ^ k) (fun a => total w (fun v => padded_at p m (i * 2 ^ k + a) (j * w + v))) =
    rsum (2 ^ k) (fun a => rsum w (fun v => padded_at p m (i * 2 ^ k + a) (j * w + v)))) by (intros; rewrite total_rsum; apply rsum_ext; intros; apply total_rsum).
  rewrite (EQ m), (EQ m').
  set (S1 := rsum (2 ^ k) (fun a => rsum w (fun v => padded_at p m (i * 2 ^ k + a) (j * w + v)))).
  set (S2 := rsum (2 ^ k) (fun a => rsum w (fun v => padded_at p m' (i * 2 ^ k + a) (j * w + v)))).
  replace (s * (S1 / INR (2 ^ k * w)) - S2 / INR (2 ^ k * w)) with ((s * S1 - S2) * / INR (2 ^ k * w)) by (unfold Rdiv; ring).
  rewrite Rabs_mult, (Rabs_pos_eq (/ _)) by (apply Rlt_le, Rinv_0_lt_compat; auto).
  apply Rmult_le_reg_r with (INR (2 ^ k * w)); auto. rewrite Rmult_assoc, Rinv_l, Rmult_1_r by lra.
  unfold S1, S2. rewrite <- rsum_scal, <- rsum_minus. eapply Rle_trans; [apply rsum_abs|].
  rewrite mult_INR. replace (dl * (INR (2 ^ k) * INR w)) with (INR (2 ^ k) * (INR w * dl)) by ring. rewrite <- rsum_const.
  apply rsum_le. intros a _. rewrite <- rsum_scal, <- rsum_minus. eapply Rle_trans; [apply rsum_abs|]. rewrite <- rsum_const.
  apply rsum_le. intros v _. apply H.
Qed.

(** the bound *)
Lemma thumb_small k : wtype p = 1%Z -> length (shape p) = 2%nat -> (steps p <= 6)%Z -> (k <= nsteps p)%nat ->
  255 * preview_sample u32 eta32 (/ 2 ^ 23) (/ 2 ^ 149) p k (sqrt (INR (window_area p)) * 1) (spread_at p k 0 0) <= 24 / 100 / 2 ^ k.
Proof.
  intros H1 H2 H6 Hk. pose proof (acc_steps p HA) as ST.
  assert (S0 : spread_at p k 0 0 = 0) by (unfold spread_at; rewrite !Rmult_0_l, Rmult_0_r, Rplus_0_l, Rmult_0_r; apply sqrt_0). rewrite S0.
  assert (K6 : (nsteps p <= 6)%nat) by (unfold nsteps; lia).
  assert (I2 : is_1d p = false) by (unfold is_1d; destruct (shape p) as [|x [|y [|z l]]]; cbn in H2; try lia; reflexivity).
  assert (F : factor p k = 2 ^ k) by (unfold factor; rewrite I2; reflexivity).
  eapply Rle_trans; [apply Rmult_le_compat_l; [lra|apply (sample_db1 f32_scale p HA k Hk (fun _ => scale_divides32 p k HA Hk)); auto; [|lra]]|].
  { rewrite Rmult_1_r. apply sqrt_pos. }
  rewrite F. pose proof (sqrt_area p HA) as SA. pose proof (sqrt_pos (INR (window_area p))) as SP.
  assert (W : INR (window p) <= 64).
  { replace 64 with (INR 64) by (rewrite INR_IZR_INZ; reflexivity). apply le_INR. unfold window. rewrite H1. change (Z.to_nat 1) with 1%nat.
    destruct (nsteps p =? 0)%nat; [lia|]. rewrite Nat.mul_1_r. change (2 * 1 - 2)%nat with 0%nat. rewrite Nat.sub_0_r.
    change 64%nat with (2 ^ 6)%nat. apply Nat.pow_le_mono_r; lia. }
  assert (P : INR (passes p * nsteps p) <= 12).
  { replace 12 with (INR 12) by (rewrite INR_IZR_INZ; reflexivity). apply le_INR. unfold passes. rewrite I2. lia. }
  assert (P0 : 0 <= INR (passes p * nsteps p)) by apply pos_INR.
  assert (N7 : INR (nsteps p + 1) <= 7) by (replace 7 with (INR 7) by (rewrite INR_IZR_INZ; reflexivity); apply le_INR; lia).
  assert (K64 : 1 <= 2 ^ k <= 64).
  { split; [apply pow_R1_Rle; lra|]. replace 64 with (2 ^ 6) by ring. apply Rle_pow; [lra|lia]. }
  assert (E73 : INR (nsteps p + 1) / 2 ^ 73 <= / 10 ^ 9).
  { apply Rle_trans with (7 * / 2 ^ 73); [apply Rmult_le_compat_r; [apply Rlt_le, Rinv_0_lt_compat, pow_lt; lra|exact N7]|].
    change 73%nat with (40 + 33)%nat. rewrite pow_add, Rinv_mult by (apply pow_nonzero; lra).
    assert (Q1 : / 2 ^ 40 <= / 10 ^ 9) by (apply Rinv_le_contravar; [apply pow_lt; lra|]; rewrite (pow_IZR 2 40), (pow_IZR 10 9); apply IZR_le; vm_compute; discriminate).
    assert (Q2 : 7 * / 2 ^ 33 <= 1).
    { apply Rmult_le_reg_r with (2 ^ 33); [apply pow_lt; lra|]. rewrite Rmult_assoc, Rinv_l by (apply pow_nonzero; lra). rewrite (pow_IZR 2 33).
      change (Z.of_nat 33) with 33%Z. assert (7 <= IZR (2 ^ 33)) by (apply IZR_le; vm_compute; discriminate). lra. }
    assert (Q3 : 0 < / 2 ^ 33) by (apply Rinv_0_lt_compat, pow_lt; lra).
    replace (7 * (/ 2 ^ 40 * / 2 ^ 33)) with (/ 2 ^ 40 * (7 * / 2 ^ 33)) by ring. rewrite <- (Rmult_1_r (/ 10 ^ 9)).
    apply Rmult_le_compat; auto; [apply Rlt_le, Rinv_0_lt_compat, pow_lt; lra|lra]. }
  set (q := 2 ^ k) in *. set (E := INR (nsteps p + 1) / 2 ^ 73) in *. clearbody E q.
  apply Rmult_le_reg_r with q; [lra|]. unfold Rdiv. rewrite Rmult_plus_distr_l, Rmult_plus_distr_r, !Rmult_assoc, Rinv_l by lra.
  set (P' := INR (passes p * nsteps p)) in *. set (n := sqrt (INR (window_area p))) in *. clearbody P' n.
  assert (M1 : (P' * (102 * / 10 ^ 8) + 2 * / 10 ^ 7) * n <= (12 * (102 * / 10 ^ 8) + 2 * / 10 ^ 7) * 64) by (apply Rmult_le_compat; lra).
  assert (M2 : E * q <= / 10 ^ 9 * q) by (apply Rmult_le_compat_r; lra). lra.
Qed.
End T.

(** decode a JPEG picture, decompose, compose at 2^-k, encode *)
Theorem thumbnail sc p (b : buffer f32) lib quality data img k :
  accepted p -> wtype p = 1%Z -> (steps p <= 6)%Z -> (k <= nsteps p)%nat -> divides32 sc p k ->
  @reachable f32 (with_division sc) p b ->
  shape p = [Z.of_nat (cwidth img); Z.of_nat (cheight img)] -> signum p = 3%Z ->
  data <> [] -> jload lib data = Some img -> cimg_wf img -> cspectrum img = 3%nat ->
  Forall (fun z => 0 <= z <= 255)%Z (cpixels img) ->
  (2 ^ k <= cwidth img)%nat -> (2 ^ k <= cheight img)%nat ->
  (Z.of_nat (cwidth img) <= 2 ^ 62)%Z -> (Z.of_nat (cheight img) <= 2 ^ 62)%Z ->
  exists im b' out img' size, rgb_decode lib of_pixel data [] 0 = Ok (true, im) /\
    @decompose f32 (with_division sc) b im null_denoiser = Ok (true, b') /\
    @compose f32 (with_division sc) b' (Z.of_nat k) = Ok (true, out) /\
    rgb_encode lib to_pixel quality out 0 = (let* bytes := jsave lib img' size quality in Ok (Some bytes)) /\
    cwidth img' = (cwidth img / 2 ^ k)%nat /\ cheight img' = (cheight img / 2 ^ k)%nat /\ cspectrum img' = 3%nat /\ cimg_wf img' /\
    forall x y c, (x < cwidth img')%nat -> (y < cheight img')%nat -> (c < 3)%nat ->
      exists z, pixel img' x y c = Some z /\
        block_mean p (plane img c) k (small_row p k y) (small_col p k x) - 1 - / 4 / 2 ^ k < IZR z <=
        block_mean p (plane img c) k (small_row p k y) (small_col p k x) + / 4 / 2 ^ k.
Proof.
  intros HA H1 H6 Hk HD Hr Ep E3 Hne Hl W Sp Hp HW HH HW62 HH62.
  assert (K0 : (0 < 2 ^ k)%nat) by (pose proof (Nat.pow_nonzero 2 k); lia).
  destruct (decode_ok lib of_pixel 3 data [] 0 img Hne Hl W ltac:(lia)) as (im & Ed & D).
  pose proof D as (DL & _ & _ & D4). cbn [length Nat.max Nat.add] in DL.
  assert (ER : drows p = cheight img) by (unfold drows; rewrite Ep; apply Nat2Z.id).
  assert (EC : dcols p = cwidth img) by (unfold dcols; rewrite Ep; apply Nat2Z.id).
  assert (I2 : is_1d p = false) by (unfold is_1d; rewrite Ep; reflexivity).
  assert (HF : Forall (fun m => shaped p m /\ Forall (fun x => exists z, (0 <= z <= 255)%Z /\ x = of_pixel z) (elts m)) im).
  { apply Forall_forall. intros m Hm. apply In_nth_error in Hm as (k0 & Hk0).
    assert (Hk3 : (k0 < 3)%nat) by (assert (k0 < length im)%nat by (apply nth_error_Some; congruence); lia).
    destruct (D4 k0 Hk3) as (m' & N & Wm & R & C & G). assert (m' = m) by (cbn in N; congruence). subst m'.
    split; [split; [exact Wm|split; congruence]|].
    apply Forall_forall. intros v Hv. apply In_nth_error in Hv as (n & Hn).
    assert (Hn' : (n < rows m * cols m)%nat) by (rewrite <- Wm; apply nth_error_Some; congruence).
    destruct (idx_inv n (rows m) (cols m) Hn') as (Q1 & Q2 & Q3).
    destruct (G (n mod cols m)%nat (n / cols m)%nat) as (z & P & Q); [lia|lia|].
    exists z. split.
    - rewrite Forall_forall in Hp. apply Hp. unfold pixel in P. eapply nth_error_In; eauto.
    - unfold mget in Q. destruct ((_ <? _)%nat && (_ <? _)%nat) in Q; [|discriminate]. unfold rd in Q.
      rewrite <- Q3, Hn in Q. inversion Q. reflexivity. }
  assert (HS : Forall (shaped p) im) by (eapply Forall_impl; [|exact HF]; cbn; tauto).
  assert (B1 : 0 <= 1 <= 2 ^ 46) by (split; [lra|apply pow_R1_Rle; lra]).
  assert (HBd : Forall (bounded 1) im) by (eapply Forall_impl; [|exact HF]; intros m (_ & Hm); apply levels_bounded; exact Hm).
  assert (HL : Z.of_nat (length im) = signum p) by lia.
  assert (HQ : accepted (coarse p k)) by (apply coarse_accepted; auto; rewrite Ep; repeat constructor; auto).
  assert (Hre : exists be : buffer R, @reachable R exactR (coarse p k) be) by (pose proof HQ as (Y1 & Y2 & Y3 & _); eexists; apply reach_new, new_buffer_legal; auto; lia).
  destruct Hre as (be & Hre).
  destruct (plain_sample sc p HA k Hk (fun _ => HD) b be im 1 HQ Hr Hre ltac:(lia) HL HS B1 HBd) as (b' & out & be' & E1 & E2 & E4 & E5 & H).
  assert (LE : length (bdec be') = 3%nat).
  { rewrite (@dec_okA R exactR (coarse p k) HQ be) in E5; auto.
    - injection E5 as <-. cbn [bdec]. rewrite !map_length. exact DL.
    - cbn [signum coarse]. lia.
    - rewrite map_length. exact HL.
    - apply Forall_forall. intros m Hm. apply in_map_iff in Hm as (m' & <- & _). apply padded_shaped; auto. }
  assert (SR : small_rows p k = (cheight img / 2 ^ k)%nat) by (unfold small_rows; rewrite ER; reflexivity).
  assert (SC : small_cols p k = (cwidth img / 2 ^ k)%nat) by (unfold small_cols; rewrite EC, I2; reflexivity).
  assert (OUT : forall c, (c < 3)%nat -> exists m o chE, nth_error im c = Some m /\ nth_error out c = Some o /\ nth_error (bdec be') c = Some chE /\
    sized (small_rows p k) (small_cols p k) o).
  { intros c Hc. destruct (D4 c Hc) as (m & N & _). cbn [Nat.add] in N.
    destruct (nth_error out c) as [o|] eqn:No; [|apply nth_error_None in No; lia].
    destruct (nth_error (bdec be') c) as [chE|] eqn:NE; [|apply nth_error_None in NE; lia].
    exists m, o, chE. do 3 (split; [auto|]). apply (H c m o chE N No NE). }
  assert (WO : Forall mwf out).
  { apply Forall_forall. intros o Ho. apply In_nth_error in Ho as (c & Hc).
    assert (Hc3 : (c < 3)%nat) by (assert (c < length out)%nat by (apply nth_error_Some; congruence); lia).
    destruct (OUT c Hc3) as (m & o' & chE & _ & No & _ & (Wo & _)). congruence. }
  assert (HE : encodable 3 out 0).
  { exists (small_rows p k), (small_cols p k). rewrite SR, SC.
    split; [pose proof (Nat.div_str_pos (cheight img) (2 ^ k)); lia|]. split; [pose proof (Nat.div_str_pos (cwidth img) (2 ^ k)); lia|].
    intros c Hc. destruct (OUT c Hc) as (m & o & chE & _ & No & _ & (_ & Ro & Co)). exists o. rewrite <- SR, <- SC. auto. }
  destruct (proj2 (rgb_encode_when lib to_pixel quality out 0 WO) HE) as (img' & size & (Q1 & Q2 & Q3) & Ee).
  assert (DIM : cheight img' = small_rows p k /\ cwidth img' = small_cols p k).
  { destruct (Q3 0%nat ltac:(lia)) as (o & N & R & C & _). cbn [Nat.add] in N. destruct (OUT 0%nat ltac:(lia)) as (m & o' & chE & _ & No & _ & (_ & Ro & Co)).
    assert (o' = o) by congruence. subst o'. split; congruence. }
  destruct DIM as [DH DW].
  exists im, b', out, img', size. do 4 (split; [assumption|]). do 2 (split; [congruence|]). do 2 (split; [assumption|]).
  intros x y c Hx Hy Hc. destruct (D4 c Hc) as (m & N & Wm & R & C & G). cbn [Nat.add] in N.
  destruct (Q3 c Hc) as (o & N' & R' & C' & G'). cbn [Nat.add] in N'.
  destruct (OUT c Hc) as (m' & o' & chE & Nm & No & NE & Sz). assert (m' = m) by congruence. assert (o' = o) by congruence. subst m' o'.
  destruct (G' x y) as (v & Q' & P'); [lia|lia|]. exists (to_pixel v). split; [exact P'|].
  destruct (H c m o chE N N' NE) as (_ & Fo & _ & HM). specialize (HM H1 y x ltac:(lia) ltac:(lia)).
  apply mget_at in Q' as [A2 J2]. unfold all_finite in Fo. rewrite Forall_forall in Fo. rewrite A2 in HM.
  set (M := block_mean p (plane img c) k (small_row p k y) (small_col p k x)).
  set (Mv := block_mean p (values m) k (small_row p k y) (small_col p k x)) in *.
  assert (LV : forall i j, exists z, (0 <= z <= 255)%Z /\ padded_at p (plane img c) i j = IZR z /\ padded_at p (values m) i j = B2R (of_pixel z)).
  { intros i j. unfold padded_at. rewrite ER, EC.
    set (i' := nearest (cheight img) _). set (j' := nearest (cwidth img) _).
    assert (Hi' : (i' < cheight img)%nat) by (unfold i', nearest; lia). assert (Hj' : (j' < cwidth img)%nat) by (unfold j', nearest; lia).
    destruct (G j' i' Hj' Hi') as (z & P & Q). exists z. split; [|split].
    - rewrite Forall_forall in Hp. apply Hp. unfold pixel in P. eapply nth_error_In; eauto.
    - change (at_ (mk (cheight img) (cwidth img) (fun i j => match pixel img j i c with Some z => IZR z | None => 0 end)) i' j' = IZR z).
      rewrite at_mk by auto. rewrite P. reflexivity.
    - apply mget_at in Q as [Q _]. exact Q. }
  assert (b24 : bpow radix2 (-24) = / 16777216) by reflexivity.
  assert (b53 : 0 <= bpow radix2 (-53) <= / 16777216).
  { split; [apply bpow_ge_0|]. rewrite <- b24. apply bpow_le. lia. }
  assert (M255 : 0 <= M <= 255).
  { apply (mean_of p (plane img c) k _ _ (fun t => 0 <= t <= 255)).
    - intros a a' Ha Ha' t Ht. nra.
    - intros i j. destruct (LV i j) as (z & Hz & -> & _). split; apply IZR_le; lia. }
  assert (CL : Rabs (255 * Mv - M) <= 255 * (2 / 16777216)).
  { apply mean_lin; [lra|]. intros i j. destruct (LV i j) as (z & Hz & -> & ->). destruct (of_pixel_close z Hz) as (_ & _ & Hc').
    replace (255 * B2R (of_pixel z) - IZR z) with (255 * (B2R (of_pixel z) - IZR z / 255)) by field.
    rewrite Rabs_mult, (Rabs_pos_eq 255) by lra. apply Rmult_le_compat_l; lra. }
  assert (L2 : length (shape p) = 2%nat) by (rewrite Ep; reflexivity).
  pose proof (thumb_small p HA k H1 L2 H6 Hk) as TB.
  assert (K6 : (nsteps p <= 6)%nat) by (unfold nsteps; lia).
  assert (K64 : 1 <= 2 ^ k <= 64).
  { split; [apply pow_R1_Rle; lra|]. replace 64 with (2 ^ 6) by ring. apply Rle_pow; [lra|lia]. }
  assert (I64 : / 64 <= / 2 ^ k <= 1) by (split; [apply Rinv_le_contravar; lra|rewrite <- Rinv_1; apply Rinv_le_contravar; lra]).
  set (q := / 2 ^ k) in *. unfold Rdiv in *. fold q in TB |- *. clearbody q.
  assert (FIN : Rabs (255 * B2R v - M) <= 24 * / 100 * q + 255 * (2 * / 16777216)).
  { replace (255 * B2R v - M) with (255 * (B2R v - Mv) + (255 * Mv - M)) by ring.
    eapply Rle_trans; [apply Rabs_triang|]. apply Rplus_le_compat; [|exact CL].
    rewrite Rabs_mult, (Rabs_pos_eq 255) by lra. eapply Rle_trans; [|exact TB]. apply Rmult_le_compat_l; [lra|exact HM]. }
  pose proof (level_between v M _ (Fo v J2) M255 FIN) as LB. lra.
Qed.
