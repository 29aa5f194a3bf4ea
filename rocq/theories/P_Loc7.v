(** * P_Loc7: 8-bit images. *)
Require Import List Bool Arith ZArith QArith Qreals Lia Reals Lra Psatz.
Require Import ZifyBool.
Require Import Flocq.Core.Core Flocq.IEEE754.BinarySingleNaN.
Require Import Verif.M_Base Verif.M_Params Verif.M_Padding Verif.M_Wavelet Verif.M_Buffer Verif.M_View Verif.M_Image Verif.M_Real Verif.M_Float Verif.M_Binary32 Verif.M_Denoise.
Require Import Verif.S_Params Verif.S_Padding Verif.S_Buffer Verif.S_Exact Verif.S_Round Verif.S_Stable Verif.S_Local Verif.S_Denoise Verif.S_Image.
Require Import Verif.P_Base Verif.P_Wavelet Verif.P_Buffer Verif.P_Impl Verif.P_Api Verif.P_Api2 Verif.P_Image.
Require Import Verif.P_PR Verif.P_L2 Verif.P_Round Verif.P_Round2 Verif.P_Round3.
Require Import Verif.P_Float Verif.P_Binary32 Verif.P_Bin2 Verif.P_Bin3 Verif.P_Stable Verif.P_BinMove2 Verif.P_Loc4 Verif.P_Loc5 Verif.P_Loc6.
Import ListNotations.
Open Scope R_scope.

(** ** a level *)
Lemma level_kept x z : is_finite x = true -> (0 <= z <= 255)%Z -> Rabs (B2R x - B2R (of_pixel z)) <= 38 / 10 ^ 4 ->
  to_pixel x = z \/ to_pixel x = (z - 1)%Z.
Proof.
  intros Fx Hz H. destruct (of_pixel_close z Hz) as (_ & _ & Hp). pose proof (to_pixel_range x) as Rg.
  assert (b24 : bpow radix2 (-24) = / 16777216) by reflexivity.
  assert (b16 : bpow radix2 (-16) = / 65536) by reflexivity.
  assert (b53 : 0 <= bpow radix2 (-53) <= / 16777216).
  { split; [apply bpow_ge_0|]. rewrite <- b24. apply bpow_le. lia. }
  apply Rabs_def2b in H || apply Rabs_le_inv in H. apply Rabs_le_inv in Hp.
  assert (Z0 : 0 <= IZR z <= 255) by (split; apply IZR_le; lia).
  assert (L1 : IZR (to_pixel x) < IZR z + 1).
  { destruct (Rlt_le_dec (B2R x) 0) as [L|L].
    - pose proof (to_pixel_mono x (of_pixel 0)) as M. rewrite pixel_back in M by lia.
      destruct (of_pixel_close 0 ltac:(lia)) as (F0 & (P0 & _) & _). specialize (M Fx F0 ltac:(lra)).
      apply IZR_le in M. lra.
    - destruct (Rlt_le_dec 1 (B2R x)) as [U|U].
      + assert (255 <= IZR z + (970 / 1000)) by lra.
        assert (z = 255)%Z. { assert (254 < IZR z) by lra. apply lt_IZR in H1. lia. }
        subst z. assert (IZR (to_pixel x) <= 255) by (apply IZR_le; lia). lra.
      + destruct (to_pixel_close x Fx (conj L U)) as [_ Q]. lra. }
  assert (L2 : IZR z - 2 < IZR (to_pixel x)).
  { destruct (Rlt_le_dec (B2R x) 0) as [L|L].
    - assert (IZR z < 1) by lra. assert (0 <= IZR (to_pixel x)) by (apply IZR_le; lia). lra.
    - destruct (Rlt_le_dec 1 (B2R x)) as [U|U].
      + pose proof (to_pixel_mono (of_pixel 255) x) as M. rewrite pixel_back in M by lia.
        destruct (of_pixel_close 255 ltac:(lia)) as (F0 & (_ & P0) & _). specialize (M F0 Fx ltac:(lra)).
        apply IZR_le in M. lra.
      + destruct (to_pixel_close x Fx (conj L U)) as [Q _]. lra. }
  rewrite <- plus_IZR in L1. rewrite <- minus_IZR in L2. apply lt_IZR in L1, L2. lia.
Qed.

(** ** the error is below a level *)
Section P.
Variable p : params.
Hypothesis HA : accepted p.
Hypothesis HK : levels_kept p.
Lemma window_1 : (1 <= window p)%nat.
Proof. pose proof (window_pos p HA). lia. Qed.
Lemma sqrt_area : sqrt (INR (window_area p)) <= INR (window p).
Proof.
  unfold window_area. rewrite pow_INR. pose proof window_1 as W. apply le_INR in W. change (INR 1) with 1 in W.
  unfold passes. destruct (is_1d p).
  - rewrite pow_1. apply sqrt_le_by; nra.
  - simpl (_ ^ 2). rewrite Rmult_1_r, sqrt_square; lra.
Qed.
Lemma below_level : float_rel u32 p * (sqrt (INR (window_area p)) * 1) + underflow u32 eta32 p <= 38 / 10 ^ 4.
Proof.
  destruct (float_bounds p HA) as [F1 F2].
  assert (U : underflow u32 eta32 p <= 1 / 10 ^ 5).
  { eapply Rle_trans; [exact F2|]. pose proof (K62 p HA) as K. rewrite (K_nsteps p HA) in K.
    assert (INR (nsteps p) <= 62) by (replace 62 with (INR 62) by (simpl; lra); apply le_INR; lia).
    assert (2 ^ 74 >= 10 ^ 8). { rewrite (pow_IZR 2 74), (pow_IZR 10 8). apply Rle_ge, IZR_le. vm_compute. discriminate. }
    apply (Rmult_le_reg_r (2 ^ 74)); [apply pow_lt; lra|]. unfold Rdiv at 1. rewrite Rmult_assoc, Rinv_l, Rmult_1_r by (apply pow_nonzero; lra).
    nra. }
  rewrite Rmult_1_r. pose proof sqrt_area as SA. pose proof (sqrt_pos (INR (window_area p))) as SP.
  unfold levels_kept in HK. apply le_INR in HK. rewrite mult_INR in HK. pose proof (pos_INR (passes p * nsteps p)) as P0. pose proof (pos_INR (window p)) as P1.
  assert (G : forall c, 0 <= c -> float_rel u32 p <= INR (passes p * nsteps p) * c ->
     float_rel u32 p * sqrt (INR (window_area p)) <= INR (passes p * nsteps p) * INR (window p) * c).
  { intros c Hc Hf. apply Rle_trans with (INR (passes p * nsteps p) * c * sqrt (INR (window_area p))).
    - apply Rmult_le_compat_r; auto.
    - replace (INR (passes p * nsteps p) * INR (window p) * c) with (INR (passes p * nsteps p) * c * INR (window p)) by ring.
      apply Rmult_le_compat_l; auto. apply Rmult_le_pos; auto. }
  destruct (Z.eqb_spec (wtype p) 1) as [E|E].
  - specialize (G (102 / 10 ^ 8) ltac:(lra) (float_rel_db1 p HA E)).
    replace (INR 3600) with 3600 in HK by (rewrite INR_IZR_INZ; reflexivity). nra.
  - specialize (G (75 / 10 ^ 7) ltac:(lra) F1).
    replace (INR 500) with 500 in HK by (rewrite INR_IZR_INZ; reflexivity). nra.
Qed.

Lemma mget_at (m : mat f32) i j x : mget m i j = Ok x -> at_ (values m) i j = B2R x /\ In x (elts m).
Proof.
  unfold mget. destruct ((i <? rows m)%nat && (j <? cols m)%nat); [|discriminate]. unfold rd.
  destruct (nth_error (elts m) (i * cols m + j)) as [y|] eqn:E; [|discriminate]. intros H. inversion H; subst y. split.
  - unfold at_, values; cbn [cols elts]. apply nth_error_nth. apply map_nth_error. exact E.
  - eapply nth_error_In; eauto.
Qed.
(** one channel of levels *)
Definition levels (m : mat f32) : Prop := Forall (fun x => exists z, (0 <= z <= 255)%Z /\ x = of_pixel z) (elts m).
Lemma levels_bounded m : levels m -> bounded 1 m.
Proof.
  intros H. eapply Forall_impl; [|exact H]. intros x (z & Hz & ->). destruct (of_pixel_close z Hz) as (F & B & _).
  split; auto. rewrite Rabs_pos_eq; lra.
Qed.
Lemma level_back m i j z x : shaped p m -> levels m -> (i < drows p)%nat -> (j < dcols p)%nat -> (0 <= z <= 255)%Z ->
  mget m i j = Ok (of_pixel z) ->
  mget (@com_of p f32 binary32 0 (@dec_of p f32 binary32 null_denoiser m)) i j = Ok x ->
  to_pixel x = z \/ to_pixel x = (z - 1)%Z.
Proof.
  intros S L Hi Hj Hz G1 G2. destruct (one_sample p HA 1 m S) as (_ & F & H); auto using levels_bounded.
  { apply pow_R1_Rle; lra. }
  apply mget_at in G1 as [E1 _]. apply mget_at in G2 as [E2 I2]. specialize (H i j Hi Hj).
  eapply Rle_trans in H; [|apply Req_le; reflexivity]. unfold all_finite in F. rewrite Forall_forall in F.
  apply level_kept; auto. rewrite <- E1, <- E2. eapply Rle_trans; [exact H|]. apply below_level.
Qed.
Theorem levels_round_trip b data : @reachable f32 binary32 p b ->
  (1 <= signum p)%Z -> Z.of_nat (length data) = signum p -> Forall (shaped p) data -> Forall levels data ->
  exists b' out, @decompose f32 binary32 b data null_denoiser = Ok (true, b') /\
    @compose f32 binary32 b' 0 = Ok (true, out) /\ length out = length data /\
    forall c m o, nth_error data c = Some m -> nth_error out c = Some o ->
      sized (drows p) (dcols p) o /\
      forall i j z, (i < drows p)%nat -> (j < dcols p)%nat -> (0 <= z <= 255)%Z -> mget m i j = Ok (of_pixel z) ->
        exists x, mget o i j = Ok x /\ (to_pixel x = z \/ to_pixel x = (z - 1)%Z).
Proof.
  intros Hr Hsig HL HS HLv. eexists _, _. split; [apply (@dec_okA f32 binary32 p HA b data); auto|].
  split; [apply (@com_okA f32 binary32 p HA data 0); auto; lia|].
  rewrite map_length. split; auto. intros c m o Hm Ho.
  rewrite nth_error_map, Hm in Ho. inversion Ho; subst o; clear Ho. apply nth_error_In in Hm. rewrite Forall_forall in HS, HLv.
  pose proof (com32_sized p HA (@dec_of p f32 binary32 null_denoiser m)) as SZ. split; [exact SZ|]. intros i j z Hi Hj Hz G.
  destruct SZ as (W & R & C). destruct (P_Denoise.mget_some _ i j W) as (x & Ex); [rewrite R; auto|rewrite C; auto|].
  exists x. split; [exact Ex|]. eapply level_back; eauto.
Qed.
End P.

(** ** import and export with any number of steps *)
Section Img.
Context {T : Type} {A : Arith T}.
Lemma import_export_any p (b : buffer T) data den cd start im :
  accepted p -> reachable p b -> keeps_shape den -> is_1d p = false ->
  icdecode cd data = Ok (true, im) -> im <> [] -> Forall (shaped p) im ->
  Z.of_nat (length im) = icchannels cd ->
  (0 <= start)%Z -> (start + icchannels cd <= signum p)%Z -> (signum p < 2 ^ 31)%Z ->
  exists b', import_string b data den cd start = Ok (kOk, b') /\
    export_string b' cd start =
      let* e := icencode cd (map (fun m => com_of p 0 (dec_of p den m)) im) in
      Ok (match e with Some bytes => (kOk, Some bytes) | None => (kWrongData, None) end).
Proof.
  intros HA HR Hk H2 Hd Hne HS HL Hs Hr Hb.
  destruct (import_ok p b data den cd start im) as (b' & E1 & HR' & Eb & Ed); auto; [lia|].
  exists b'. split; [exact E1|].
  destruct (reachable_weak p b HA HR) as (F1 & F2 & F3). destruct (reachable_weak p b' HA HR') as (G1 & G2 & G3).
  assert (Hf : length (firstn (Z.to_nat start) (bdec b)) = Z.to_nat start) by (rewrite firstn_length; lia).
  assert (Hsl : firstn (Z.to_nat (icchannels cd)) (skipn (Z.to_nat start) (bdec b')) = map (P_Impl.dec_of p den) im).
  { rewrite Ed. rewrite skipn_app, skipn_all2 by lia. rewrite Hf, Nat.sub_diag, app_nil_l, skipn_O.
    rewrite firstn_app, map_length. replace (Z.to_nat (icchannels cd) - length im)%nat with 0%nat by lia.
    rewrite firstn_O, app_nil_r. apply firstn_all2. rewrite map_length. lia. }
  rewrite (export_ok p); auto; try lia.
  - rewrite Hsl, map_map. reflexivity.
  - intros i ch Hi Hn.
    assert (Hin : In ch (map (P_Impl.dec_of p den) im)).
    { rewrite <- Hsl. apply nth_error_In with (i - Z.to_nat start)%nat.
      rewrite <- (firstn_skipn (Z.to_nat start) (bdec b')) in Hn.
      assert (Hf' : length (firstn (Z.to_nat start) (bdec b')) = Z.to_nat start).
      { rewrite firstn_length. assert (start <= Z.of_nat (length (bdec b')))%Z by (rewrite G2; lia). lia. }
      rewrite nth_error_app2 in Hn by lia. rewrite Hf' in Hn.
      rewrite <- (firstn_skipn (Z.to_nat (icchannels cd)) (skipn (Z.to_nat start) (bdec b'))) in Hn.
      rewrite nth_error_app1 in Hn; [exact Hn|]. rewrite Hsl, map_length. lia. }
    apply in_map_iff in Hin as (m & <- & _). apply dec_of_layout; auto.
Qed.
End Img.

Theorem picture_levels p (b : buffer f32) lib quality data start img :
  let cd := ImageCodec f32 (fun data => rgb_decode lib of_pixel data [] 0)
                           (fun image => rgb_encode lib to_pixel quality image 0) 3 in
  accepted p -> levels_kept p -> @reachable f32 binary32 p b ->
  shape p = [Z.of_nat (cwidth img); Z.of_nat (cheight img)] -> (signum p < 2 ^ 31)%Z ->
  data <> [] -> jload lib data = Some img -> cimg_wf img -> cspectrum img = 3%nat ->
  cwidth img <> 0%nat -> cheight img <> 0%nat ->
  Forall (fun z => 0 <= z <= 255)%Z (cpixels img) ->
  (0 <= start)%Z -> (start + 3 <= signum p)%Z ->
  exists b' img' size, @import_string f32 binary32 b data null_denoiser cd start = Ok (kOk, b') /\
    @export_string f32 binary32 b' cd start = (let* bytes := jsave lib img' size quality in Ok (kOk, Some bytes)) /\
    cwidth img' = cwidth img /\ cheight img' = cheight img /\ cspectrum img' = 3%nat /\ cimg_wf img' /\
    forall x y k z, (x < cwidth img)%nat -> (y < cheight img)%nat -> (k < 3)%nat -> pixel img x y k = Some z ->
      pixel img' x y k = Some z \/ pixel img' x y k = Some (z - 1)%Z.
Proof.
  intros cd HA HK HR Ep Hc Hne Hl W Sp HW0 HH0 Hp Hs Hr.
  destruct (decode_ok lib of_pixel 3 data [] 0 img Hne Hl W ltac:(lia)) as (im & Ed & D).
  pose proof D as (DL & _ & _ & D4). cbn [length Nat.max Nat.add] in DL.
  assert (ER : drows p = cheight img) by (unfold drows; rewrite Ep; apply Nat2Z.id).
  assert (EC : dcols p = cwidth img) by (unfold dcols; rewrite Ep; apply Nat2Z.id).
  assert (I2 : is_1d p = false) by (unfold is_1d; rewrite Ep; reflexivity).
  assert (HF : Forall (fun m => shaped p m /\ levels m) im).
  { apply Forall_forall. intros m Hm. apply In_nth_error in Hm as (i & Hi).
    assert (i < length im)%nat by (apply nth_error_Some; congruence).
    destruct (D4 i) as (m' & N & Wm & R & C & G); [lia|]. cbn [Nat.add] in N. assert (m = m') by congruence. subst m'.
    split; [split; [exact Wm|]; rewrite ER, EC; auto|].
    apply Forall_forall. intros v Hv. apply In_nth_error in Hv as (q & Hq).
    assert (Hq' : (q < rows m * cols m)%nat) by (rewrite <- Wm; apply nth_error_Some; congruence).
    destruct (idx_inv q (rows m) (cols m) Hq') as (Q1 & Q2 & Q3).
    destruct (G (q mod cols m)%nat (q / cols m)%nat) as (z & P & Q); [lia|lia|].
    exists z. split.
    - rewrite Forall_forall in Hp. apply Hp. unfold pixel in P. eapply nth_error_In; eauto.
    - unfold mget in Q. destruct ((_ <? _)%nat && (_ <? _)%nat) in Q; [|discriminate]. unfold rd in Q.
      rewrite <- Q3, Hq in Q. inversion Q. reflexivity. }
  destruct (import_export_any p b data null_denoiser cd start im) as (b' & E1 & E2); auto.
  { apply null_keepsA. }
  { intros ->. discriminate. }
  { eapply Forall_impl; [|exact HF]. cbn. tauto. }
  { rewrite DL. reflexivity. }
  set (out := map (fun m => @com_of p f32 binary32 0 (@dec_of p f32 binary32 null_denoiser m)) im) in *.
  assert (SZ : forall m, In m im -> sized (drows p) (dcols p) (@com_of p f32 binary32 0 (@dec_of p f32 binary32 null_denoiser m))).
  { intros m Hm. rewrite Forall_forall in HF. apply (com32_sized p HA). }
  assert (WO : Forall mwf out).
  { apply Forall_forall. intros o Ho. apply in_map_iff in Ho as (m & <- & Hm). apply SZ, Hm. }
  assert (HE : encodable 3 out 0).
  { exists (drows p), (dcols p). split; [congruence|]. split; [congruence|].
    intros k Hk. destruct (D4 k Hk) as (m & N & _). cbn [Nat.add] in N |- *.
    exists (@com_of p f32 binary32 0 (@dec_of p f32 binary32 null_denoiser m)). split; [unfold out; exact (map_nth_error (fun m => @com_of p f32 binary32 0 (@dec_of p f32 binary32 null_denoiser m)) k im N)|].
    apply SZ. eapply nth_error_In; eauto. }
  destruct (proj2 (rgb_encode_when lib to_pixel quality out 0 WO) HE) as (img' & size & (S1 & S2 & S3) & Ee).
  exists b', img', size. split; [exact E1|]. split.
  { rewrite E2. cbn [icencode cd]. rewrite Ee. destruct (jsave lib img' size quality); reflexivity. }
  assert (DIM : cheight img' = cheight img /\ cwidth img' = cwidth img).
  { destruct (S3 0%nat ltac:(lia)) as (o & N & R & C & _). cbn [Nat.add] in N. apply nth_error_In, in_map_iff in N as (m & <- & Hm).
    destruct (SZ m Hm) as (_ & R' & C'). split; congruence. }
  destruct DIM as [DH DW]. split; [auto|]. split; [auto|]. split; [auto|]. split; [auto|].
  intros x y k z Hx Hy Hk Pz. destruct (D4 k Hk) as (m & N & Wm & R & C & G). cbn [Nat.add] in N.
  destruct (S3 k Hk) as (o & N' & R' & C' & G'). cbn [Nat.add] in N'. unfold out in N'.
  rewrite (map_nth_error (fun m => @com_of p f32 binary32 0 (@dec_of p f32 binary32 null_denoiser m)) k im N) in N'. inversion N'; subst o; clear N'.
  destruct (G x y Hx Hy) as (z' & P & Q). assert (z' = z) by congruence. subst z'.
  destruct (G' x y) as (v & Q' & P'); [lia|lia|]. rewrite P'.
  apply nth_error_In in N. rewrite Forall_forall in HF. destruct (HF m N) as [Sm Lm].
  assert (Hz : (0 <= z <= 255)%Z). { rewrite Forall_forall in Hp. apply Hp. unfold pixel in P. eapply nth_error_In; eauto. }
  destruct (level_back p HA HK m y x z v Sm Lm) as [-> | ->]; auto; lia.
Qed.
