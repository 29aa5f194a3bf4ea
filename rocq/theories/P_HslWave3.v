(** * P_HslWave3: colour pictures imported and exported with the HSL codec *)
Require Import List Bool Arith ZArith QArith Qreals Lia Reals Lra Psatz.
Require Import ZifyBool.
Require Import Flocq.Core.Core Flocq.IEEE754.BinarySingleNaN.
Require Import Verif.M_Base Verif.M_Params Verif.M_Padding Verif.M_Wavelet Verif.M_Buffer Verif.M_View Verif.M_Image Verif.M_Real Verif.M_Float Verif.M_Binary32 Verif.M_Denoise Verif.M_ColorF.
Require Import Verif.S_Params Verif.S_Padding Verif.S_Buffer Verif.S_Exact Verif.S_Round Verif.S_Stable Verif.S_Local Verif.S_Denoise Verif.S_Image Verif.S_HslWave.
Require Import Verif.P_Base Verif.P_Wavelet Verif.P_Buffer Verif.P_Impl Verif.P_Api Verif.P_Api2 Verif.P_Image.
Require Import Verif.P_PR Verif.P_L2 Verif.P_Round Verif.P_Round2 Verif.P_Round3.
Require Import Verif.P_Float Verif.P_Binary32 Verif.P_Bin2 Verif.P_Bin3 Verif.P_Stable Verif.P_BinMove2 Verif.P_Loc4 Verif.P_Loc5 Verif.P_Loc6 Verif.P_Loc7.
Require Verif.P_ColorF Verif.P_ColorF4 Verif.P_HslWave2.
Import ListNotations.
Open Scope R_scope.
Local Opaque u32.

(** ** one colour *)
Lemma colour_level a b c h' s' l' : (0 <= a <= 255)%Z -> (0 <= b <= 255)%Z -> (0 <= c <= 255)%Z ->
  is_finite h' = true -> is_finite s' = true -> is_finite l' = true ->
  let '(h, s, l) := rgb_to_hsl32 (of_pixel a) (of_pixel b) (of_pixel c) in
  Rabs (B2R h' - B2R h) <= 42 / 10 ^ 5 -> Rabs (B2R s' - B2R s) <= 42 / 10 ^ 5 -> Rabs (B2R l' - B2R l) <= 42 / 10 ^ 5 ->
  let '(r2, g2, b2) := hsl_to_rgb32 h' s' l' in
  (to_pixel r2 = a \/ to_pixel r2 = a - 1)%Z /\ (to_pixel g2 = b \/ to_pixel g2 = b - 1)%Z /\ (to_pixel b2 = c \/ to_pixel b2 = c - 1)%Z.
Proof.
  intros Ha Hb Hc Fh Fs Fl.
  destruct (P_ColorF4.level a Ha) as (F1 & B1 & _). destruct (P_ColorF4.level b Hb) as (F2 & B2 & _). destruct (P_ColorF4.level c Hc) as (F3 & B3 & _).
  pose proof (P_HslWave2.colour_moved (42 / 10 ^ 5) _ _ _ h' s' l' F1 F2 F3 B1 B2 B3 Fh Fs Fl ltac:(lra)) as K.
  pose proof (P_HslWave2.level_colours a b c Ha Hb Hc) as L.
  destruct (rgb_to_hsl32 _ _ _) as ((h & s) & l). intros Nh Ns Nl.
  apply P_ColorF.near_abs in Nh, Ns, Nl. specialize (K Nh Ns Nl).
  destruct (hsl_to_rgb32 h s l) as ((r1 & g1) & b1). destruct (hsl_to_rgb32 h' s' l') as ((r2 & g2) & b2).
  destruct K as ((G1 & G2 & G3) & K1 & K2 & K3). destruct L as (_ & L1 & L2 & L3). pose proof P_ColorF.u32_range as U.
  unfold P_ColorF.near in *.
  repeat split; apply level_kept; auto; apply Rabs_le; lra.
Qed.

Section P.
Variable p : params.
Hypothesis HA : accepted p.
Hypothesis HK : colours_kept p.
Lemma below_colour : float_rel u32 p * (sqrt (INR (window_area p)) * (1001 / 1000)) + underflow u32 eta32 p <= 42 / 10 ^ 5.
Proof.
  destruct (float_bounds p HA) as [F1 F2].
  assert (U : underflow u32 eta32 p <= 1 / 10 ^ 6).
  { eapply Rle_trans; [exact F2|]. pose proof (K62 p HA) as K. rewrite (K_nsteps p HA) in K.
    assert (INR (nsteps p) <= 62) by (replace 62 with (INR 62) by (simpl; lra); apply le_INR; lia).
    assert (2 ^ 74 >= 10 ^ 9). { rewrite (pow_IZR 2 74), (pow_IZR 10 9). apply Rle_ge, IZR_le. vm_compute. discriminate. }
    apply (Rmult_le_reg_r (2 ^ 74)); [apply pow_lt; lra|]. unfold Rdiv at 1. rewrite Rmult_assoc, Rinv_l, Rmult_1_r by (apply pow_nonzero; lra).
    nra. }
  pose proof (sqrt_area p HA) as SA. pose proof (sqrt_pos (INR (window_area p))) as SP.
  unfold colours_kept in HK. apply le_INR in HK. rewrite mult_INR in HK. pose proof (pos_INR (passes p * nsteps p)) as P0. pose proof (pos_INR (window p)) as P1.
  assert (G : forall c, 0 <= c -> float_rel u32 p <= INR (passes p * nsteps p) * c ->
     float_rel u32 p * sqrt (INR (window_area p)) <= INR (passes p * nsteps p) * INR (window p) * c).
  { intros c Hc Hf. apply Rle_trans with (INR (passes p * nsteps p) * c * sqrt (INR (window_area p))).
    - apply Rmult_le_compat_r; auto.
    - replace (INR (passes p * nsteps p) * INR (window p) * c) with (INR (passes p * nsteps p) * c * INR (window p)) by ring.
      apply Rmult_le_compat_l; auto. apply Rmult_le_pos; auto. }
  rewrite <- Rmult_assoc.
  destruct (Z.eqb_spec (wtype p) 1) as [E|E].
  - specialize (G (102 / 10 ^ 8) ltac:(lra) (float_rel_db1 p HA E)).
    replace (INR 400) with 400 in HK by (rewrite INR_IZR_INZ; reflexivity). nra.
  - specialize (G (75 / 10 ^ 7) ltac:(lra) F1).
    replace (INR 55) with 55 in HK by (rewrite INR_IZR_INZ; reflexivity). nra.
Qed.

(** one sample of a channel of hues, saturations or luminances *)
Lemma hsl_sample m i j v x : shaped p m -> bounded (1001 / 1000) m -> (i < drows p)%nat -> (j < dcols p)%nat ->
  mget m i j = Ok v -> mget (@com_of p f32 binary32 0 (@dec_of p f32 binary32 null_denoiser m)) i j = Ok x ->
  is_finite x = true /\ Rabs (B2R x - B2R v) <= 42 / 10 ^ 5.
Proof.
  intros S L Hi Hj G1 G2. destruct (one_sample p HA (1001 / 1000) m S) as (_ & F & H); auto.
  { apply Rle_trans with (2 ^ 1); [lra|]. apply Rle_pow; [lra|lia]. }
  apply mget_at in G1 as [E1 _]. apply mget_at in G2 as [E2 I2]. specialize (H i j Hi Hj).
  unfold all_finite in F. rewrite Forall_forall in F. split; [auto|].
  rewrite <- E1, <- E2. eapply Rle_trans; [exact H|]. exact below_colour.
Qed.
End P.

Theorem hsl_wavelet p (b : buffer f32) lib quality data start img :
  let cd := ImageCodec f32 (fun data => hsl_decode lib of_pixel rgb_to_hsl32 data [] 0)
                           (fun image => hsl_encode lib to_pixel quality hsl_to_rgb32 image 0) 3 in
  accepted p -> colours_kept p -> @reachable f32 binary32 p b ->
  shape p = [Z.of_nat (cwidth img); Z.of_nat (cheight img)] -> (signum p < 2 ^ 31)%Z ->
  data <> [] -> jload lib data = Some img -> cimg_wf img -> cspectrum img = 3%nat ->
  cwidth img <> 0%nat -> cheight img <> 0%nat ->
  Forall (fun z => 0 <= z <= 255)%Z (cpixels img) ->
  (0 <= start)%Z -> (start + 3 <= signum p)%Z ->
  exists b' img' size, @import_string f32 binary32 b data null_denoiser cd start = Ok (kOk, b') /\
    @export_string f32 binary32 b' cd start = (let* bytes := jsave lib img' size quality in Ok (kOk, Some bytes)) /\
    cwidth img' = cwidth img /\ cheight img' = cheight img /\ cspectrum img' = 3%nat /\ cimg_wf img' /\
    forall x y k z, (x < cwidth img)%nat -> (y < cheight img)%nat -> (k < 3)%nat -> pixel img x y k = Some z ->
      pixel img' x y k = Some z \/ pixel img' x y k = Some (z - 1)%Z.
Proof.
  intros cd HA HK HR Ep Hc Hne Hl W Sp HW0 HH0 Hp Hs Hr.
  destruct (hsl_decode_ok lib of_pixel rgb_to_hsl32 data [] 0 img Hne Hl W ltac:(lia)) as (mid & im & D & PW & Ed).
  pose proof D as (DL & _ & _ & D4). cbn [length Nat.max Nat.add] in DL.
  assert (ER : drows p = cheight img) by (unfold drows; rewrite Ep; apply Nat2Z.id).
  assert (EC : dcols p = cwidth img) by (unfold dcols; rewrite Ep; apply Nat2Z.id).
  assert (I2 : is_1d p = false) by (unfold is_1d; rewrite Ep; reflexivity).
  destruct PW as (PL & _ & a & b0 & c & h & s & l & Na & Nb & Nc & Nh & Ns & Nl & FD & V).
  cbn [Nat.add] in *.
  destruct (D4 0%nat ltac:(lia)) as (a' & Na' & _ & Ra & Ca & Ga). destruct (D4 1%nat ltac:(lia)) as (b' & Nb' & _ & Rb & Cb & Gb).
  destruct (D4 2%nat ltac:(lia)) as (c' & Nc' & _ & Rc & Cc & Gc). 
  assert (a' = a) by congruence. assert (b' = b0) by congruence. assert (c' = c) by congruence. subst a' b' c'.
  inversion FD as [|? ? (Wh & Rh & Ch) FD1]; subst. inversion FD1 as [|? ? (Ws & Rs & Cs) FD2]; subst. inversion FD2 as [|? ? (Wl & Rl & Cl) _]; subst.
  assert (Eim : im = [h; s; l]).
  { assert (length im = 3%nat) as L3 by congruence. destruct im as [|i0 [|i1 [|i2 [|? ?]]]]; try discriminate L3. cbn in Nh, Ns, Nl. congruence. }
  (* the three values at a pixel *)
  assert (PX : forall x y, (x < cwidth img)%nat -> (y < cheight img)%nat -> exists u v w,
    pixel img x y 0 = Some u /\ pixel img x y 1 = Some v /\ pixel img x y 2 = Some w /\
    (0 <= u <= 255)%Z /\ (0 <= v <= 255)%Z /\ (0 <= w <= 255)%Z /\
    mget h y x = Ok (fst (fst (rgb_to_hsl32 (of_pixel u) (of_pixel v) (of_pixel w)))) /\
    mget s y x = Ok (snd (fst (rgb_to_hsl32 (of_pixel u) (of_pixel v) (of_pixel w)))) /\
    mget l y x = Ok (snd (rgb_to_hsl32 (of_pixel u) (of_pixel v) (of_pixel w)))).
  { intros x y Hx Hy. destruct (Ga x y Hx Hy) as (u & Pu & Mu). destruct (Gb x y Hx Hy) as (v & Pv & Mv). destruct (Gc x y Hx Hy) as (w & Pw & Mw).
    destruct (V y x ltac:(lia) ltac:(lia)) as (u1 & v1 & w1 & Q1 & Q2 & Q3 & Q4 & Q5 & Q6).
    assert (u1 = of_pixel u) by congruence. assert (v1 = of_pixel v) by congruence. assert (w1 = of_pixel w) by congruence. subst u1 v1 w1.
    rewrite Forall_forall in Hp. 
    assert (R0 : (0 <= u <= 255)%Z) by (apply Hp; unfold pixel in Pu; eapply nth_error_In; exact Pu).
    assert (R1 : (0 <= v <= 255)%Z) by (apply Hp; unfold pixel in Pv; eapply nth_error_In; exact Pv).
    assert (R2 : (0 <= w <= 255)%Z) by (apply Hp; unfold pixel in Pw; eapply nth_error_In; exact Pw).
    exists u, v, w. auto 12. }
  assert (BD : forall m, In m im -> shaped p m /\ bounded (1001 / 1000) m).
  { intros m Hm. rewrite Eim in Hm.
    assert (Sm : shaped p m).
    { destruct Hm as [<-|[<-|[<-|[]]]]; (split; [assumption|split; [rewrite ER|rewrite EC]; congruence]). }
    split; [exact Sm|]. destruct Sm as (Wm & Rm & Cm).
    apply Forall_forall. intros v Hv. apply In_nth_error in Hv as (q & Hq).
    assert (Hq' : (q < rows m * cols m)%nat) by (rewrite <- Wm; apply nth_error_Some; congruence).
    destruct (idx_inv q (rows m) (cols m) Hq') as (Q1 & Q2 & Q3).
    destruct (PX (q mod cols m)%nat (q / cols m)%nat) as (u & w & t & _ & _ & _ & R0 & R1 & R2 & M0 & M1 & M2); [lia|lia|].
    pose proof (P_HslWave2.level_colours u w t R0 R1 R2) as L.
    destruct (rgb_to_hsl32 (of_pixel u) (of_pixel w) (of_pixel t)) as ((h1 & s1) & l1). cbn [fst snd] in M0, M1, M2.
    destruct (hsl_to_rgb32 h1 s1 l1) as ((? & ?) & ?). destruct L as ((L1 & L2 & L3 & L4 & L5 & L6) & _).
    assert (E : forall x, mget m (q / cols m) (q mod cols m) = Ok x -> v = x).
    { intros x Q. unfold mget in Q. destruct ((_ <? _)%nat && (_ <? _)%nat) in Q; [|discriminate]. unfold rd in Q. rewrite <- Q3, Hq in Q. congruence. }
    destruct Hm as [<-|[<-|[<-|[]]]]; [rewrite (E _ M0)|rewrite (E _ M1)|rewrite (E _ M2)]; (split; [assumption|]); rewrite Rabs_pos_eq; lra. }
  destruct (import_export_any p b data null_denoiser cd start im) as (b' & E1 & E2); auto.
  { apply null_keepsA. }
  { rewrite Eim. discriminate. }
  { apply Forall_forall. intros m Hm. apply BD; auto. }
  { rewrite Eim. reflexivity. }
  set (back := fun m => @com_of p f32 binary32 0 (@dec_of p f32 binary32 null_denoiser m)) in *.
  assert (SZ : forall m, sized (drows p) (dcols p) (back m)) by (intros m; apply (com32_sized p HA)).
  assert (WO : Forall mwf (map back im)).
  { apply Forall_forall. intros o Ho. apply in_map_iff in Ho as (m & <- & Hm). apply SZ. }
  assert (HE : encodable 3 (map back im) 0).
  { exists (drows p), (dcols p). split; [congruence|]. split; [congruence|]. rewrite Eim.
    intros k Hk. destruct k as [|[|[|k]]]; [| | |lia]; eexists; (split; [reflexivity|]); apply SZ. }
  destruct (proj2 (hsl_encode_when lib to_pixel quality hsl_to_rgb32 (map back im) 0 WO) HE) as (copy & img' & size & PC & (S1 & S2 & S3) & Ee).
  exists b', img', size. split; [exact E1|]. split.
  { rewrite E2. cbn [icencode cd]. rewrite Ee. destruct (jsave lib img' size quality); reflexivity. }
  destruct PC as (_ & _ & ho & so & lo & r1 & g1 & b1 & Nho & Nso & Nlo & Nr & Ng & Nb1 & FC & VC). rewrite Eim in Nho, Nso, Nlo. cbn [map nth_error Nat.add] in Nho, Nso, Nlo.
  injection Nho as <-. injection Nso as <-. injection Nlo as <-.
  destruct (Forall_inv FC) as (_ & Rr & Cr).
  assert (DIM : cheight img' = cheight img /\ cwidth img' = cwidth img).
  { destruct (S3 0%nat ltac:(lia)) as (o & N & R & C & _). cbn [Nat.add] in N, Nr. assert (o = r1) by congruence. subst o.
    destruct (SZ h) as (_ & R' & C'). split; congruence. }
  destruct DIM as [DH DW]. split; [auto|]. split; [auto|]. split; [auto|]. split; [auto|].
  intros x y k z Hx Hy Hk Pz.
  destruct (PX x y Hx Hy) as (u & v & w & Pu & Pv & Pw & R0 & R1 & R2 & M0 & M1 & M2).
  destruct (SZ h) as (_ & Rh' & Ch').
  destruct (VC y x ltac:(lia) ltac:(lia)) as (h2 & s2 & l2 & Q1 & Q2 & Q3 & Q4 & Q5 & Q6).
  pose proof (colour_level u v w h2 s2 l2 R0 R1 R2) as CL.
  destruct (rgb_to_hsl32 (of_pixel u) (of_pixel v) (of_pixel w)) as ((h1 & s1) & l1). cbn [fst snd] in M0, M1, M2.
  assert (Hy' : (y < drows p)%nat) by lia. assert (Hx' : (x < dcols p)%nat) by lia.
  assert (INh : In h im) by (rewrite Eim; cbn; auto). assert (INs : In s im) by (rewrite Eim; cbn; auto). assert (INl : In l im) by (rewrite Eim; cbn; auto).
  destruct (hsl_sample p HA HK h y x h1 h2 (proj1 (BD h INh)) (proj2 (BD h INh)) Hy' Hx' M0 Q1) as (F1 & N1).
  destruct (hsl_sample p HA HK s y x s1 s2 (proj1 (BD s INs)) (proj2 (BD s INs)) Hy' Hx' M1 Q2) as (F2 & N2).
  destruct (hsl_sample p HA HK l y x l1 l2 (proj1 (BD l INl)) (proj2 (BD l INl)) Hy' Hx' M2 Q3) as (F3 & N3).
  specialize (CL F1 F2 F3 N1 N2 N3). destruct (hsl_to_rgb32 h2 s2 l2) as ((r2 & g2) & b2). cbn [fst snd] in Q4, Q5, Q6.
  destruct CL as (C0 & C1 & C2).
  destruct (S3 k Hk) as (o & N & Ro & Co & G). destruct (G x y ltac:(lia) ltac:(lia)) as (t & Mt & Pt). rewrite Pt. cbn [Nat.add] in *.
  destruct k as [|[|[|k]]]; [| | |lia].
  - assert (o = r1) by congruence. subst o. assert (t = r2) by congruence. assert (z = u) by congruence. subst. destruct C0 as [-> | ->]; auto.
  - assert (o = g1) by congruence. subst o. assert (t = g2) by congruence. assert (z = v) by congruence. subst. destruct C1 as [-> | ->]; auto.
  - assert (o = b1) by congruence. subst o. assert (t = b2) by congruence. assert (z = w) by congruence. subst. destruct C2 as [-> | ->]; auto.
Qed.
