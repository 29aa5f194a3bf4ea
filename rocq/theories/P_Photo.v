(** * P_Photo: a picture imported with thresholds, stored with loss, read and exported *)
Require Import List Bool Arith ZArith QArith Qreals Lia Reals Lra Psatz.
Require Import ZifyBool.
Require Import Flocq.Core.Core Flocq.IEEE754.BinarySingleNaN.
Require Import Verif.M_Base Verif.M_Params Verif.M_Wavelet Verif.M_Buffer Verif.M_View Verif.M_Image Verif.M_Real Verif.M_Float Verif.M_Binary32 Verif.M_Denoise
  Verif.M_Equal Verif.M_Archive Verif.M_SfCodec Verif.M_SfEqual Verif.M_Serializer.
Require Import Verif.S_Params Verif.S_Buffer Verif.S_Exact Verif.S_Round Verif.S_Stable Verif.S_Local Verif.S_Image Verif.S_Serializer Verif.S_Lossy.
Require Import Verif.P_Base Verif.P_Wavelet Verif.P_Buffer Verif.P_Impl Verif.P_Api Verif.P_Api2 Verif.P_Image Verif.P_Denoise Verif.P_Sum Verif.P_Lin Verif.P_PR Verif.P_L2 Verif.P_Rec Verif.P_Exact
  Verif.P_Rel Verif.P_Round Verif.P_Round2 Verif.P_Round3 Verif.P_Float Verif.P_Binary32 Verif.P_Bin2 Verif.P_Bin3 Verif.P_Stable Verif.P_Stable2 Verif.P_Loc4 Verif.P_Loc5 Verif.P_Loc6 Verif.P_Loc7 Verif.P_Peak Verif.P_Peak2 Verif.P_Peak3 Verif.P_Pipe.
Import ListNotations.
Open Scope R_scope.
Local Opaque u32.

Theorem photo_stored p (b : buffer f32) lib quality data img (ta tb : f32) T cd sf q d e k :
  let ic := ImageCodec f32 (fun data => rgb_decode lib of_pixel data [] 0)
                           (fun image => rgb_encode lib to_pixel quality image 0) 3 in
  accepted p -> @reachable f32 binary32 p b ->
  shape p = [Z.of_nat (cwidth img); Z.of_nat (cheight img)] -> signum p = 3%Z ->
  data <> [] -> jload lib data = Some img -> cimg_wf img -> cspectrum img = 3%nat ->
  cwidth img <> 0%nat -> cheight img <> 0%nat ->
  Forall (fun z => 0 <= z <= 255)%Z (cpixels img) ->
  (Z.of_nat (level_rows p 0) < 2 ^ 31)%Z -> (Z.of_nat (level_cols p 0) < 2 ^ 31)%Z ->
  (Z.of_nat (level_rows p 0) * Z.of_nat (level_cols p 0) < 2 ^ 32)%Z ->
  0 <= T -> (forall s, (s < nsteps p)%nat -> is_finite (get_threshold ta tb s) = true /\ B2R (get_threshold ta tb s) <= T) ->
  (1 <= sf)%Z -> codec_faithful cd (33 - Z.min 31 sf) q -> codec_total cd (33 - Z.min 31 sf) ->
  0 <= d <= 1 / 2 -> 0 <= e <= 1 -> loses d e q -> (1 <= k)%Z ->
  float_rel u32 p * sqrt (INR (window_area p)) + underflow u32 eta32 p
    + step_gain u32 p ^ nsteps p * spread p (Rmax (T + e) (lost p u32 eta32 d e 1)) (lost p u32 eta32 d e 1) <= IZR k * (38 / 10 ^ 4) ->
  exists b0 blob b1 img' size, @import_string f32 binary32 b data (threshold_denoiser ta tb) ic 0 = Ok (kOk, b0) /\
    serialize cd (patterns b0) sf = Ok (Some blob) /\ Forall is_byte blob /\
    (forall legacy extra, parse cd legacy (blob ++ extra) = Ok (Some b1)) /\
    @export_string f32 binary32 (floats b1) ic 0 = (let* bytes := jsave lib img' size quality in Ok (kOk, Some bytes)) /\
    cwidth img' = cwidth img /\ cheight img' = cheight img /\ cspectrum img' = 3%nat /\ cimg_wf img' /\
    forall x y c z, (x < cwidth img)%nat -> (y < cheight img)%nat -> (c < 3)%nat -> pixel img x y c = Some z ->
      exists z', pixel img' x y c = Some z' /\ (z - k <= z' <= z + k - 1)%Z.
Proof.
  intros ic HA HR Ep E3 Hne Hl W Sp HW0 HH0 Hp S1 S2 S3 T0 Hthr Hsf HC HT Hd He Hq Hk HB.
  destruct (decode_ok lib of_pixel 3 data [] 0 img Hne Hl W ltac:(lia)) as (im & Ed & D).
  pose proof D as (DL & _ & _ & D4). cbn [length Nat.max Nat.add] in DL.
  assert (ER : drows p = cheight img) by (unfold drows; rewrite Ep; apply Nat2Z.id).
  assert (EC : dcols p = cwidth img) by (unfold dcols; rewrite Ep; apply Nat2Z.id).
  assert (I2 : is_1d p = false) by (unfold is_1d; rewrite Ep; reflexivity).
  assert (HF : Forall (fun m => shaped p m /\ Forall (fun x => exists z, (0 <= z <= 255)%Z /\ x = of_pixel z) (elts m)) im).
  { apply Forall_forall. intros m Hm. apply In_nth_error in Hm as (k0 & Hk0).
    assert (Hk3 : (k0 < 3)%nat) by (assert (k0 < length im)%nat by (apply nth_error_Some; congruence); lia).
    destruct (D4 k0 Hk3) as (m' & N & Wm & R & C & G). assert (m' = m) by (cbn in N; congruence). subst m'.
    split; [split; [exact Wm|split; congruence]|].
    apply Forall_forall. intros v Hv. apply In_nth_error in Hv as (n & Hn).
    assert (Hn' : (n < rows m * cols m)%nat) by (rewrite <- Wm; apply nth_error_Some; congruence).
    destruct (idx_inv n (rows m) (cols m) Hn') as (Q1 & Q2 & Q3).
    destruct (G (n mod cols m)%nat (n / cols m)%nat) as (z & P & Q); [lia|lia|].
    exists z. split.
    - rewrite Forall_forall in Hp. apply Hp. unfold pixel in P. eapply nth_error_In; eauto.
    - unfold mget in Q. destruct ((_ <? _)%nat && (_ <? _)%nat) in Q; [|discriminate]. unfold rd in Q.
      rewrite <- Q3, Hn in Q. inversion Q. reflexivity. }
  assert (HS : Forall (shaped p) im) by (eapply Forall_impl; [|exact HF]; cbn; tauto).
  assert (B1 : 0 <= 1 <= 2 ^ 46) by (split; [lra|apply pow_R1_Rle; lra]).
  assert (HBd : Forall (bounded 1) im) by (eapply Forall_impl; [|exact HF]; intros m (_ & Hm); apply levels_bounded; exact Hm).
  assert (Hpos : Forall (fun n => (1 <= n)%Z) (shape p)) by (rewrite Ep; repeat constructor; lia).
  assert (HL : Z.of_nat (length im) = signum p) by lia.
  destruct (pipeline_samples p HA b im ta tb T cd sf q d e 1 HR Hpos S1 S2 S3 ltac:(lia) HL HS B1 HBd T0 Hthr Hsf HC HT Hd He Hq)
    as (b0 & blob & b1 & out & E1 & E2 & E4 & E5 & E6 & E7 & H).
  set (den := threshold_denoiser ta tb) in *.
  assert (KS : keeps_shape den) by apply P_Denoise.threshold_keeps.
  destruct (import_ok p b data den ic 0 im) as (b0' & I1 & IR & IE & ID); auto; try lia.
  { intros ->. discriminate. }
  assert (EQ : b0' = b0).
  { assert (X : @decompose f32 binary32 b im den = Ok (true, Buffer p (map (@dec_of p f32 binary32 den) im))) by (apply (safe_ok p); auto; lia).
    rewrite E1 in X. inversion X as [X0]. destruct b0' as [bp0 bd0]. cbn [bpar bdec] in *. subst bp0. f_equal. rewrite ID. cbn [Z.to_nat firstn app].
    destruct (reachable_weak p b HA HR) as (_ & F2 & _). rewrite skipn_all2 by (cbn [Nat.add]; lia). rewrite app_nil_r. reflexivity. }
  subst b0'.
  assert (OUT : forall c, (c < 3)%nat -> exists m o, nth_error im c = Some m /\ nth_error out c = Some o /\ sized (drows p) (dcols p) o /\ all_finite o).
  { intros c Hc. destruct (D4 c Hc) as (m & N & _). cbn [Nat.add] in N.
    destruct (nth_error out c) as [o|] eqn:No; [|apply nth_error_None in No; lia].
    exists m, o. split; [exact N|]. split; [reflexivity|]. destruct (H c m o N No) as (Q1 & Q2 & _). auto. }
  assert (WO : Forall mwf out).
  { apply Forall_forall. intros o Ho. apply In_nth_error in Ho as (c & Hc).
    assert (Hc3 : (c < 3)%nat) by (assert (c < length out)%nat by (apply nth_error_Some; congruence); lia).
    destruct (OUT c Hc3) as (m & o' & _ & No & (Wo & _) & _). congruence. }
  assert (HE : encodable 3 out 0).
  { exists (drows p), (dcols p). split; [congruence|]. split; [congruence|].
    intros c Hc. destruct (OUT c Hc) as (m & o & _ & No & (_ & Ro & Co) & _). exists o. auto. }
  destruct (proj2 (rgb_encode_when lib to_pixel quality out 0 WO) HE) as (img' & size & (Q1 & Q2 & Q3) & Ee).
  assert (EX : @export_string f32 binary32 (floats b1) ic 0 = (let* bytes := jsave lib img' size quality in Ok (kOk, Some bytes))).
  { assert (P1 : bpar (floats b1) = p /\ length (bdec (floats b1)) = 3%nat).
    { destruct (denoised_parts p HA b im den cd sf q d e KS (P_DenoiseF.threshold_kept ta tb) HR Hpos S1 S2 S3 ltac:(lia) HL HS) as (b00 & blob' & b11 & f & Y1 & Y2 & Y3 & Y4 & Y5 & Y6 & _); auto.
      - eapply Forall_impl; [|exact HBd]; intros m; apply bounded_finite.
      - rewrite Forall_forall in HS, HBd |- *. intros m Hm. apply (bounded_energy p HA 1 m); auto. apply B1.
      - rewrite E1 in Y1. inversion Y1; subst b00. rewrite E2 in Y3. inversion Y3; subst blob'.
        pose proof (E5 (fun _ _ => Throw) []) as Z1. rewrite (Y5 (fun _ _ => Throw) []) in Z1. inversion Z1; subst b11.
        rewrite Y6. cbn [bpar bdec]. rewrite Y2, !map_length. auto. }
    destruct P1 as [P1 P2]. unfold export_string. cbn [icchannels ic]. change (to_int32 0) with 0%Z. change (to_int32 3) with 3%Z.
    destruct (view_compose_slice (View 0 3 false) (floats b1) 0 true out) as [_ EV]; auto.
    { unfold in_range. cbn [vstart vcount]. rewrite P1. lia. }
    rewrite EV. cbn [bind vstart vcount]. change (Z.to_nat 0) with 0%nat. rewrite skipn_O, firstn_all2 by (change (Z.to_nat 3) with 3%nat; lia).
    cbn [icencode ic]. rewrite Ee. destruct (jsave lib img' size quality); reflexivity. }
  exists b0, blob, b1, img', size. do 5 (split; [assumption|]).
  assert (DIM : cheight img' = cheight img /\ cwidth img' = cwidth img).
  { destruct (Q3 0%nat ltac:(lia)) as (o & N & R & C & _). cbn [Nat.add] in N. destruct (OUT 0%nat ltac:(lia)) as (m & o' & _ & No & (_ & Ro & Co) & _).
    assert (o' = o) by congruence. subst o'. split; congruence. }
  destruct DIM as [DH DW]. do 4 (split; [auto|]).
  intros x y c z Hx Hy Hc Pz. destruct (D4 c Hc) as (m & N & Wm & R & C & G). cbn [Nat.add] in N.
  destruct (Q3 c Hc) as (o & N' & R' & C' & G'). cbn [Nat.add] in N'.
  destruct (G x y Hx Hy) as (z0 & P & Q). assert (z0 = z) by congruence. subst z0.
  destruct (G' x y) as (v & Q' & P'); [lia|lia|]. exists (to_pixel v). split; [exact P'|].
  assert (Hz : (0 <= z <= 255)%Z). { rewrite Forall_forall in Hp. apply Hp. unfold pixel in P. eapply nth_error_In; eauto. }
  destruct (H c m o N N') as (_ & Fo & Hs). specialize (Hs y x ltac:(lia) ltac:(lia)).
  apply mget_at in Q as [A1 _]. apply mget_at in Q' as [A2 J2].
  unfold all_finite in Fo. rewrite Forall_forall in Fo. apply level_moved; auto.
  rewrite <- A1, <- A2. eapply Rle_trans; [exact Hs|]. rewrite Rmult_1_r. exact HB.
Qed.

(** DB1 *)
Lemma photo_db1 p (HA : accepted p) (H1 : wtype p = 1%Z) (H2 : length (shape p) = 2%nat) (H6 : (steps p <= 6)%Z) T d e X :
  0 <= T -> 0 <= d -> 0 <= e <= / 10 ^ 9 -> d * 2 ^ nsteps p <= X -> 
  float_rel u32 p * sqrt (INR (window_area p)) + underflow u32 eta32 p
    + step_gain u32 p ^ nsteps p * spread p (Rmax (T + e) (lost p u32 eta32 d e 1)) (lost p u32 eta32 d e 1)
  <= 79 / 10 ^ 5 + 4243 / 1000 * T + X * (525 / 100).
Proof.
  intros HT Hd He HX.
  assert (I2 : is_1d p = false) by (unfold is_1d; rewrite H2; reflexivity).
  assert (NS : (nsteps p <= 6)%nat) by (unfold nsteps; lia).
  assert (PA : passes p = 2%nat) by (unfold passes; rewrite I2; reflexivity).
  assert (BA : bands p = 3%nat) by (unfold bands; rewrite I2; reflexivity).
  assert (T1 : Z.to_nat (wtype p) = 1%nat) by (rewrite H1; reflexivity).
  assert (WI : window p = (2 ^ nsteps p)%nat).
  { unfold window. rewrite T1. destruct (Nat.eqb_spec (nsteps p) 0) as [->|]; [reflexivity|]. lia. }
  assert (CO : cone p = 1%nat).
  { unfold cone. rewrite T1. change (2 * 1 - 1)%nat with 1%nat. rewrite Nat.pow_1_l. destruct (nsteps p =? 0)%nat; reflexivity. }
  assert (N6 : 0 <= INR (nsteps p) <= 6). { split; [apply pos_INR|]. replace 6 with (INR 6) by (simpl; lra). apply le_INR. lia. }
  assert (P64 : 1 <= 2 ^ nsteps p <= 64).
  { split; [apply pow_R1_Rle; lra|]. apply Rle_trans with (2 ^ 6); [apply Rle_pow; [lra|lia]|lra]. }
  assert (A1 : float_rel u32 p * sqrt (INR (window_area p)) + underflow u32 eta32 p <= 7899 / 10 ^ 7).
  { pose proof (float_rel_db1 p HA H1) as F1. destruct (float_bounds p HA) as [_ F2].
    assert (U : underflow u32 eta32 p <= 1 / 10 ^ 7).
    { eapply Rle_trans; [exact F2|].
      assert (B : 10 ^ 8 <= 2 ^ 74) by (rewrite (pow_IZR 2 74), (pow_IZR 10 8); apply IZR_le; vm_compute; discriminate).
      apply (Rmult_le_reg_r (2 ^ 74)); [apply pow_lt; lra|]. unfold Rdiv at 1. rewrite Rmult_assoc, Rinv_l, Rmult_1_r by (apply pow_nonzero; lra). 
      set (w := 2 ^ 74) in *. clearbody w. lra. }
    pose proof (sqrt_area p HA) as SA. rewrite WI, pow_INR in SA. change (INR 2) with 2 in SA.
    pose proof (sqrt_pos (INR (window_area p))) as SP. rewrite PA, mult_INR in F1. change (INR 2) with 2 in F1.
    assert (float_rel u32 p * sqrt (INR (window_area p)) <= (2 * 6 * (102 / 10 ^ 8)) * 64).
    { apply Rle_trans with ((2 * INR (nsteps p) * (102 / 10 ^ 8)) * sqrt (INR (window_area p))); [apply Rmult_le_compat_r; auto|].
      apply Rmult_le_compat; try lra. }
    lra. }
  assert (A2 : 0 <= step_gain u32 p ^ nsteps p <= 1 + 1 / 10 ^ 5).
  { unfold step_gain. rewrite H1, PA, <- pow_mult. destruct pass_db1 as [L H]. split; [apply pow_le; lra|].
    set (w := pass_gain u32 1) in *. replace w with (1 + (w - 1)) by ring.
    assert (NN : 0 <= INR (2 * nsteps p) <= 12) by (rewrite mult_INR; change (INR 2) with 2; lra).
    assert (E : (1 + (w - 1)) ^ (2 * nsteps p) - 1 <= 7 / 10 ^ 6 / (1 - 7 / 10 ^ 6)); [|lra].
    apply pow_bound; try lra. nra. }
  set (L := lost p u32 eta32 d e 1).
  assert (PK : 0 <= peak u32 eta32 p (passes p * nsteps p) 1 <= (1 + 3 / 10 ^ 4) * 2 ^ nsteps p).
  { split; [apply (peak_0 u32 eta32 u32_pos eta32_pos p HA); [lra|lia]|].
    eapply Rle_trans; [apply (peak_bound p (passes p * nsteps p) 1 HA); [lra|lia]|].
    rewrite H1, PA. change (coefficient_sum 1) with 1%Q. rewrite RMicromega.Q2R_1, Rmult_1_r, pow_mult, <- Rsqr_pow2, Rsqr_sqrt by lra.
    assert (B : / 2 ^ 136 <= / 10 ^ 5).
    { apply Rinv_le_contravar; [lra|]. rewrite (pow_IZR 2 136), (pow_IZR 10 5). apply IZR_le. vm_compute. discriminate. }
    assert (B0 : 0 < / 2 ^ 136) by (apply Rinv_0_lt_compat, pow_lt; lra).
    set (w := / 2 ^ 136) in *. clearbody w. 
    assert ((1 + 2 / 10 ^ 4) * (1 + w) <= 1 + 3 / 10 ^ 4) by lra. nra. }
  assert (X0 : 0 <= X) by (eapply Rle_trans; [|exact HX]; apply Rmult_le_pos; lra).
  assert (LL : 0 <= L <= (1 + 3 / 10 ^ 4) * X + / 10 ^ 9).
  { unfold L, lost. set (w := peak u32 eta32 p (passes p * nsteps p) 1) in *.
    assert (0 <= d * w) by (apply Rmult_le_pos; lra).
    assert (d * w <= d * ((1 + 3 / 10 ^ 4) * 2 ^ nsteps p)) by (apply Rmult_le_compat_l; lra). lra. }
  set (M := Rmax (T + e) L).
  assert (MM : 0 <= M <= T + e + L).
  { split; [eapply Rle_trans; [apply LL|apply Rmax_r]|]. apply Rmax_lub; lra. }
  assert (A3 : spread p M L <= 42427 / 10000 * M + L).
  { unfold spread. rewrite CO, BA, mult_INR. change (INR 1) with 1. replace (INR 3) with 3 by (simpl; lra).
    apply sqrt_le_by; [lra|]. nra. }
  assert (A4 : 0 <= spread p M L) by apply sqrt_pos.
  assert (A5 : step_gain u32 p ^ nsteps p * spread p M L <= (1 + 1 / 10 ^ 5) * (42427 / 10000 * M + L)) by (apply Rmult_le_compat; lra).
  lra.
Qed.
