(** * P_Near: how far a rounded coefficient is from the exact one *)
Require Import List Bool Arith ZArith QArith Qreals Lia Reals Lra.
Require Import ZifyBool.
Require Import Verif.M_Base Verif.M_Params Verif.M_Wavelet Verif.M_Buffer Verif.M_Real Verif.S_Params Verif.S_Buffer Verif.S_Exact Verif.S_Round Verif.S_Lossy.
Require Import Verif.P_Base Verif.P_Wavelet Verif.P_Buffer Verif.P_Impl Verif.P_Api Verif.P_Sum Verif.P_Lin Verif.P_PR Verif.P_L2 Verif.P_Rec Verif.P_Exact Verif.P_Rel Verif.P_Round Verif.P_Round2 Verif.P_Round3 Verif.P_Stable2 Verif.P_Api2 Verif.P_Peak.
Import ListNotations.
Open Scope R_scope.

Lemma g_0 t : g_ 0 t = 0.
Proof. unfold g_, gam. rewrite Rplus_0_r, pow1. ring. Qed.
Lemma n_0 t : n_ 0 0 t = 0.
Proof. unfold n_, nu. ring. Qed.
Lemma mv_minus n M x y i : mv n M x i - mv n M y i = mv n M (fun j => x j - y j) i.
Proof.
  unfold mv. rewrite (rsum_ext n (fun j => M i j * (x j - y j)) (fun j => M i j * x j - M i j * y j)) by (intros; ring).
  induction n as [|n IH]; cbn [rsum]; [ring|]. rewrite <- IH. ring.
Qed.

Section Round.
Variables (u eta : R) (A : Arith R).
Hypothesis (HR : rounding u eta A) (Hu : 0 <= u) (Heta : 0 <= eta).
Variable t : Z.
Hypothesis Ht : (1 <= t <= 10)%Z.
Variable B : R.
Hypothesis B0 : 0 <= B.
Notation a := (peak_gain u t).
Notation v := (peak_under u eta t).
Definition pkt n := a ^ n * (B + INR n * v).
Definition near_ n (x e : R) : Prop := Rabs x <= pkt n /\ Rabs (x - e) <= pkt n - hsum t ^ n * B.

Lemma pkt_step n : a * pkt n + v <= pkt (S n).
Proof.
  unfold pkt. pose proof (peak_gain_1 u Hu t Ht) as A1. pose proof (peak_under_0 u eta Hu Heta t) as V0.
  pose proof (pow_ge_1 a (S n) A1). rewrite S_INR. cbn [pow] in *.
  assert (v <= a * a ^ n * v) by nra. lra.
Qed.
Lemma row_near (w we : R) N x xe r n : (Z.to_nat t <= N)%nat -> (r < 2 * N)%nat ->
  Rabs (w - mv (2 * N) (HM t (2 * N)) x r) <= g_ u t * mv (2 * N) (HA_ t (2 * N)) (fun j => Rabs (x j)) r + n_ u eta t ->
  we = mv (2 * N) (HM t (2 * N)) xe r ->
  (forall j, (j < 2 * N)%nat -> near_ n (x j) (xe j)) -> near_ (S n) w we.
Proof.
  intros HN Hr H -> HX.
  assert (HM_ : forall j, (j < 2 * N)%nat -> Rabs (x j) <= pkt n) by (intros; apply HX; auto).
  assert (HD : forall j, (j < 2 * N)%nat -> Rabs (x j - xe j) <= pkt n - hsum t ^ n * B) by (intros; apply HX; auto).
  pose proof (row_peak u eta Hu w t N x r (pkt n) Ht HN Hr H HM_) as RP. pose proof (pkt_step n) as PS.
  split; [lra|].
  assert (M0 : 0 <= pkt n) by (eapply Rle_trans; [apply Rabs_pos|apply (HM_ 0%nat); lia]).
  assert (E0 : 0 <= pkt n - hsum t ^ n * B) by (eapply Rle_trans; [apply Rabs_pos|apply (HD 0%nat); lia]).
  pose proof (mv_le (2 * N) (HA_ t (2 * N)) (fun j => Rabs (x j)) (pkt n) (HA_pos t (2 * N)) HM_ r) as E2.
  destruct (HA_sums t N Ht HN) as [E3 _]. specialize (E3 r Hr).
  pose proof (gam_pos u Hu (2 * Z.to_nat t)) as Hg.
  pose proof (mv_abs t N (fun j => x j - xe j) r Ht ltac:(lia) Hr) as F1.
  pose proof (mv_le (2 * N) (HA_ t (2 * N)) (fun j => Rabs (x j - xe j)) _ (HA_pos t (2 * N)) HD r) as F2.
  rewrite <- mv_minus in F1.
  set (one := mv (2 * N) (HA_ t (2 * N)) (fun _ => 1) r) in *.
  assert (E4 : pkt n * one <= pkt n * hsum t) by (apply Rmult_le_compat_l; auto).
  assert (F4 : (pkt n - hsum t ^ n * B) * one <= (pkt n - hsum t ^ n * B) * hsum t) by (apply Rmult_le_compat_l; auto).
  assert (E5 : g_ u t * mv (2 * N) (HA_ t (2 * N)) (fun j => Rabs (x j)) r <= g_ u t * (pkt n * hsum t)) by (apply Rmult_le_compat_l; [exact Hg|lra]).
  assert (E6 : n_ u eta t = v).
  { unfold n_, nu, peak_under. rewrite (mult_INR 2 (Z.to_nat t)). simpl (INR 2). ring. }
  assert (E7 : a * pkt n = g_ u t * (pkt n * hsum t) + pkt n * hsum t).
  { unfold peak_gain, g_, gam. fold (hsum t). ring. }
  pose proof (Rabs_triang (w - mv (2 * N) (HM t (2 * N)) x r) (mv (2 * N) (HM t (2 * N)) x r - mv (2 * N) (HM t (2 * N)) xe r)) as T.
  replace (w - mv (2 * N) (HM t (2 * N)) x r + (mv (2 * N) (HM t (2 * N)) x r - mv (2 * N) (HM t (2 * N)) xe r)) with (w - mv (2 * N) (HM t (2 * N)) xe r) in T by ring.
  cbn [pow]. replace (hsum t * hsum t ^ n * B) with (hsum t ^ n * B * hsum t) by ring.
  replace ((pkt n - hsum t ^ n * B) * hsum t) with (pkt n * hsum t - hsum t ^ n * B * hsum t) in F4 by ring. lra.
Qed.
End Round.

Section Geom.
Variables (u eta : R) (A : Arith R).
Hypothesis (HR : rounding u eta A) (Hu : 0 <= u) (Heta : 0 <= eta).
Variable g : geom.
Hypothesis G : gwf g.
Notation t := (gt g).
Notation K := (gK g).
Variable B : R.
Hypothesis B0 : 0 <= B.
Notation near := (near_ u eta t B).

Lemma zero_err t0 N (w : R) y r : Rabs (w - mv (2 * N) (HM t0 (2 * N)) y r) <= g_ 0 t0 * mv (2 * N) (HA_ t0 (2 * N)) (fun j => Rabs (y j)) r + n_ 0 0 t0 ->
  w = mv (2 * N) (HM t0 (2 * N)) y r.
Proof.
  rewrite g_0, n_0, Rmult_0_l, Rplus_0_r. intro H. pose proof (Rabs_pos (w - mv (2 * N) (HM t0 (2 * N)) y r)).
  destruct (Req_dec (w - mv (2 * N) (HM t0 (2 * N)) y r) 0) as [E|E]; [lra|]. apply Rabs_no_R0 in E. lra.
Qed.
Lemma ANA_near s y ye n : (s < K)%nat -> (forall i j, (i < hs g s)%nat -> (j < ws g s)%nat -> near n (y i j) (ye i j)) ->
  forall i j, (i < hs g s)%nat -> (j < ws g s)%nat -> near (n + np g) (@ANA R A g s y i j) (@ANA R exactR g s ye i j).
Proof.
  intros Hs HM i j Hi Hj. pose proof (hs_step g s G Hs) as (Hh & Hh2). pose proof (gt_range g s G Hs) as Ht.
  unfold np. destruct (gdim_cases g G) as [E|E].
  - assert (Ej : j = 0%nat) by (rewrite (ws_1 g s E) in Hj; lia). subst j. rewrite E. cbn [Nat.eqb]. rewrite Nat.add_1_r.
    assert (HX : forall k, (k < 2 * hs g (S s))%nat -> near n (y k 0%nat) (ye k 0%nat)) by (intros; apply HM; lia).
    unfold ANA. rewrite E. cbn [Nat.eqb].
    destruct (Nat.ltb_spec i (hs g (S s))).
    + destruct (afilt_both u eta A HR Hu Heta t (hs g (S s)) (fun k => y k 0%nat) i Ht ltac:(lia)) as [H1 _].
      destruct (afilt_both 0 0 exactR exact_rounding (Rle_refl 0) (Rle_refl 0) t (hs g (S s)) (fun k => ye k 0%nat) i Ht ltac:(lia)) as [H2 _].
      apply zero_err in H2. rewrite <- Hh in H1, H2.
      apply (row_near u eta Hu Heta t Ht B _ _ (hs g (S s)) (fun k => y k 0%nat) (fun k => ye k 0%nat) i n); auto; try lia; rewrite <- Hh; auto.
    + destruct (afilt_both u eta A HR Hu Heta t (hs g (S s)) (fun k => y k 0%nat) (i - hs g (S s)) Ht ltac:(lia)) as [_ H1].
      destruct (afilt_both 0 0 exactR exact_rounding (Rle_refl 0) (Rle_refl 0) t (hs g (S s)) (fun k => ye k 0%nat) (i - hs g (S s)) Ht ltac:(lia)) as [_ H2].
      apply zero_err in H2. replace (hs g (S s) + (i - hs g (S s)))%nat with i in H1, H2 by lia. rewrite <- Hh in H1, H2.
      apply (row_near u eta Hu Heta t Ht B _ _ (hs g (S s)) (fun k => y k 0%nat) (fun k => ye k 0%nat) i n); auto; try lia; rewrite <- Hh; auto.
  - pose proof (ws_step g s G E Hs) as (Hw & Hw2). rewrite E. cbn [Nat.eqb].
    set (y1 := fun i j => @rowdot R A (srow_at (@dm R A t (ws g s)) j) (y i)).
    set (y2 := fun i j => @rowdot R exactR (srow_at (@dm R exactR t (ws g s)) j) (ye i)).
    assert (P1 : forall i j, (i < hs g s)%nat -> (j < ws g s)%nat -> near (S n) (y1 i j) (y2 i j)).
    { intros i' j' Hi' Hj'. unfold y1, y2. rewrite Hw in Hj' |- *.
      pose proof (row_err u eta A HR Hu Heta t (ws g (S s)) j' (y i') Ht ltac:(lia) Hj') as H1.
      pose proof (row_err 0 0 exactR exact_rounding (Rle_refl 0) (Rle_refl 0) t (ws g (S s)) j' (ye i') Ht ltac:(lia) Hj') as H2. apply zero_err in H2.
      apply (row_near u eta Hu Heta t Ht B _ _ (ws g (S s)) (y i') (ye i') j' n); auto; try lia.
      intros k Hk. apply HM; [auto|lia]. }
    unfold ANA. rewrite E. cbn [Nat.eqb].
    change (@sep R A (@dm R A t (ws g s)) (@dm R A t (hs g s)) y i j) with (@rowdot R A (srow_at (@dm R A t (hs g s)) i) (fun k => y1 k j)).
    change (@sep R exactR (@dm R exactR t (ws g s)) (@dm R exactR t (hs g s)) ye i j) with (@rowdot R exactR (srow_at (@dm R exactR t (hs g s)) i) (fun k => y2 k j)).
    replace (n + 2)%nat with (S (S n)) by lia. rewrite Hh in Hi |- *.
    pose proof (row_err u eta A HR Hu Heta t (hs g (S s)) i (fun k => y1 k j) Ht ltac:(lia) Hi) as H1.
    pose proof (row_err 0 0 exactR exact_rounding (Rle_refl 0) (Rle_refl 0) t (hs g (S s)) i (fun k => y2 k j) Ht ltac:(lia) Hi) as H2. apply zero_err in H2.
    apply (row_near u eta Hu Heta t Ht B _ _ (hs g (S s)) (fun k => y1 k j) (fun k => y2 k j) i (S n)); auto; try lia.
    intros k Hk. apply P1; [lia|auto].
Qed.
Lemma near_start x : Rabs x <= B -> near 0 x x.
Proof.
  intro H. unfold near_, pkt. cbn [pow INR]. rewrite Rmult_0_l, Rplus_0_r, !Rmult_1_l. split; [exact H|].
  rewrite !Rminus_diag_eq by reflexivity. rewrite Rabs_R0. lra.
Qed.
Lemma ap_near x xe s : (forall i j, Rabs (x i j) <= B /\ x i j = xe i j) -> (s <= K)%nat ->
  forall i j, (i < hs g s)%nat -> (j < ws g s)%nat -> near (np g * s) (@ap R A g x s i j) (@ap R exactR g xe s i j).
Proof.
  intros HB. induction s as [|s IH]; intros Hs i j Hi Hj.
  - rewrite Nat.mul_0_r. cbn [ap]. destruct (HB i j) as [H1 <-]. apply near_start, H1.
  - assert (HsK : (s < K)%nat) by lia. destruct (level_le g G s HsK) as [L1 L2].
    rewrite (ana_low (AT := A) g x s i j HsK Hi), (ana_low (AT := exactR) g xe s i j HsK Hi).
    replace (np g * S s)%nat with (np g * s + np g)%nat by lia. apply ANA_near; auto; try lia. intros; apply IH; lia.
Qed.
End Geom.

Section P.
Variables (u eta : R) (A : Arith R).
Hypothesis (HR : rounding u eta A) (Hu : 0 <= u) (Heta : 0 <= eta).
Variable p : params.
Hypothesis HA : accepted p.
Notation g := (geom_of p).

(** how far, n passes *)
Definition off n B := peak u eta p n B - (sqrt 2 * Q2R (coefficient_sum (wtype p))) ^ n * B.
Lemma near_off n B x e : near_ u eta (gt g) B n x e -> Rabs (x - e) <= off n B.
Proof. intros [_ H]. unfold off, peak. rewrite (geom_t p HA). exact H. Qed.

Lemma el_eq h w (f : nat -> nat -> R) i j : (i < h)%nat -> (j < w)%nat -> at_ (mk h w f) i j = f i j.
Proof. intros. apply at_mk; auto. Qed.
Lemma pad_bnd m B : 0 <= B -> Forall (fun x => Rabs x <= B) (elts m) -> forall i j, Rabs (@padf p R A m i j) <= B /\ @padf p R A m i j = @padf p R exactR m i j.
Proof.
  intros B0 HB i j. unfold padf, mel. rewrite (rounding_zero _ _ _ HR). split; [|reflexivity].
  match goal with |- context [nth ?n ?l ?d] => destruct (nth_in_or_default n l d) as [H'|H'] end.
  - rewrite Forall_forall in HB. auto.
  - rewrite H'. rewrite Rabs_R0. auto.
Qed.
Lemma detail_near m B s i d de : shaped p m -> 0 <= B -> Forall (fun x => Rabs x <= B) (elts m) ->
  (s < nsteps p)%nat -> (i < bands p)%nat -> nth_error (@dec_of p R A null_denoiser m) (s * bands p + i) = Some d ->
  nth_error (@dec_of p R exactR null_denoiser m) (s * bands p + i) = Some de ->
  forall r c, (r < level_rows p (S s))%nat -> (c < level_cols p (S s))%nat -> Rabs (at_ d r c - at_ de r c) <= off (passes p * (s + 1)) B.
Proof.
  intros (W & Rm & Cm) B0 HB Hs Hi Hd Hde. rewrite <- (spw_bands p HA) in *. rewrite <- (K_nsteps p HA) in Hs.
  destruct (@detA_some A g (@padf p R A m) s i Hi) as [f Hf]. destruct (@detA_some exactR g (@padf p R exactR m) s i Hi) as [fe Hfe].
  rewrite (@dec_details R A p m s i f Hs Hf) in Hd. inversion Hd; subst d; clear Hd.
  rewrite (@dec_details R exactR p m s i fe Hs Hfe) in Hde. inversion Hde; subst de; clear Hde.
  intros r c Hr Hc. rewrite <- (hs_level p HA) in Hr. rewrite <- (ws_level p HA) in Hc.
  rewrite !el_eq by auto.
  pose proof (geom_wf p HA) as G. destruct (level_le g G s Hs) as [L1 L2]. pose proof (hs_step g s G Hs) as (Hh & Hh2).
  rewrite (ana_det (AT := A) g G (@padf p R A m) s i r c f Hs Hf), (ana_det (AT := exactR) g G (@padf p R exactR m) s i r c fe Hs Hfe).
  assert (OF : (offr i (hs g (S s)) r < hs g s)%nat /\ (offc i (ws g (S s)) c < ws g s)%nat).
  { destruct (gdim_cases g G) as [E|E].
    - assert (i = 0%nat) by (unfold gspw in Hi; rewrite E in Hi; cbn in Hi; lia). subst i. cbn [offr offc Nat.eqb].
      rewrite (ws_1 g s E), (ws_1 g (S s) E) in *. unfold offr, offc; cbn [Nat.eqb]. lia.
    - pose proof (ws_step g s G E Hs) as (Hw & Hw2). rewrite (spw_2 g E) in Hi.
      destruct i as [|[|[|i]]]; unfold offr, offc; cbn [Nat.eqb]; lia. }
  apply near_off. replace (passes p * (s + 1))%nat with (np g * s + np g)%nat by (rewrite (np_passes p HA); lia).
  apply (ANA_near u eta A HR Hu Heta g G B s); try apply OF; auto.
  apply (ap_near u eta A HR Hu Heta g G B). apply (pad_bnd m B B0 HB). lia.
Qed.
Lemma approx_near m B d de : shaped p m -> 0 <= B -> Forall (fun x => Rabs x <= B) (elts m) ->
  nth_error (@dec_of p R A null_denoiser m) (nsteps p * bands p) = Some d ->
  nth_error (@dec_of p R exactR null_denoiser m) (nsteps p * bands p) = Some de ->
  forall r c, (r < level_rows p (nsteps p))%nat -> (c < level_cols p (nsteps p))%nat -> Rabs (at_ d r c - at_ de r c) <= off (passes p * nsteps p) B.
Proof.
  intros (W & Rm & Cm) B0 HB Hd Hde. rewrite <- (spw_bands p HA), <- (K_nsteps p HA) in *.
  rewrite (@dec_approx R A p m) in Hd. inversion Hd; subst d; clear Hd.
  rewrite (@dec_approx R exactR p m) in Hde. inversion Hde; subst de; clear Hde.
  intros r c Hr Hc. rewrite <- (hs_level p HA) in Hr. rewrite <- (ws_level p HA) in Hc. unfold apm. rewrite !el_eq by auto.
  apply near_off. rewrite <- (np_passes p HA). apply (ap_near u eta A HR Hu Heta g (geom_wf p HA) B); auto. apply (pad_bnd m B B0 HB).
Qed.
Theorem coefficients_near m B k d de : shaped p m -> 0 <= B -> Forall (fun x => Rabs x <= B) (elts m) ->
  nth_error (@dec_of p R A null_denoiser m) k = Some d -> nth_error (@dec_of p R exactR null_denoiser m) k = Some de ->
  forall r c, (r < level_rows p (depth p k))%nat -> (c < level_cols p (depth p k))%nat -> Rabs (at_ d r c - at_ de r c) <= off (passes p * depth p k) B.
Proof.
  intros HS B0 HB Hd Hde.
  pose proof (dec_of_layout p HA (@null_denoiser R) m null_keepsA : has_layout p (@dec_of p R A null_denoiser m)) as (L1 & _).
  assert (Hk : (k < nsteps p * bands p + 1)%nat) by (rewrite <- L1; apply nth_error_Some; rewrite Hd; discriminate).
  assert (b1 : (1 <= bands p)%nat) by (unfold bands; destruct (is_1d p); lia).
  unfold depth. destruct (Nat.eq_dec k (nsteps p * bands p)) as [->|Hne].
  - rewrite Nat.div_mul by lia. rewrite Nat.min_r by lia. apply (approx_near m B d de); auto.
  - assert (Hs : (k / bands p < nsteps p)%nat) by (apply Nat.div_lt_upper_bound; lia).
    rewrite Nat.min_l by lia. replace (k / bands p + 1)%nat with (S (k / bands p)) by lia. intros r c Hr Hc.
    replace (S (k / bands p)) with (k / bands p + 1)%nat by lia.
    apply (detail_near m B (k / bands p) (k mod bands p) d de); auto.
    + apply Nat.mod_upper_bound. lia.
    + rewrite Nat.mul_comm, <- Nat.div_mod by lia. exact Hd.
    + rewrite Nat.mul_comm, <- Nat.div_mod by lia. exact Hde.
Qed.
Theorem pointwise b be data B : @reachable R A p b -> @reachable R exactR p be -> (1 <= signum p)%Z -> Z.of_nat (length data) = signum p -> Forall (shaped p) data ->
  0 <= B -> Forall (fun m => Forall (fun x => Rabs x <= B) (elts m)) data ->
  exists b' be', @decompose R A b data null_denoiser = Ok (true, b') /\ @decompose R exactR be data null_denoiser = Ok (true, be') /\
    forall c ch che k d de, nth_error (bdec b') c = Some ch -> nth_error (bdec be') c = Some che -> nth_error ch k = Some d -> nth_error che k = Some de ->
      forall i j, (i < level_rows p (depth p k))%nat -> (j < level_cols p (depth p k))%nat ->
        Rabs (at_ d i j - at_ de i j) <= off (passes p * depth p k) B.
Proof.
  intros Hr Hre Hsig HL HS B0 HB. eexists _, _. split; [apply (@dec_okA R A p HA b data); auto|]. split; [apply (@dec_okA R exactR p HA be data); auto|].
  cbn [bdec]. intros c ch che k d de Hc Hce Hd Hde. rewrite nth_error_map in Hc, Hce.
  destruct (nth_error data c) as [m|] eqn:Em; [|discriminate]. inversion Hc; subst ch. inversion Hce; subst che.
  rewrite Forall_forall in HS, HB. pose proof (nth_error_In _ _ Em). apply (coefficients_near m B k d de); auto.
Qed.
End P.
