(** * P_Peak: how large coefficients get *)
Require Import List Bool Arith ZArith QArith Qreals Lia Reals Lra.
Require Import ZifyBool.
Require Import Verif.M_Base Verif.M_Params Verif.M_Wavelet Verif.M_Buffer Verif.M_Real Verif.S_Params Verif.S_Buffer Verif.S_Exact Verif.S_Round Verif.S_Lossy.
Require Import Verif.P_Base Verif.P_Wavelet Verif.P_Buffer Verif.P_Impl Verif.P_Api Verif.P_Sum Verif.P_Lin Verif.P_PR Verif.P_L2 Verif.P_Rec Verif.P_Exact Verif.P_Rel Verif.P_Round Verif.P_Round2 Verif.P_Round3 Verif.P_Stable2.
Import ListNotations.
Open Scope R_scope.

Lemma mv_le n M x c : (forall i j, 0 <= M i j) -> (forall j, (j < n)%nat -> x j <= c) -> forall i, mv n M x i <= c * mv n M (fun _ => 1) i.
Proof.
  intros HM Hx i. unfold mv. rewrite <- rsum_scal. apply rsum_le. intros j Hj. specialize (Hx j Hj). specialize (HM i j). nra.
Qed.
Lemma rabs_sum n f : Rabs (rsum n f) <= rsum n (fun k => Rabs (f k)).
Proof. induction n as [|n IH]; cbn [rsum]; [rewrite Rabs_R0; lra|]. eapply Rle_trans; [apply Rabs_triang|]. lra. Qed.
Lemma mv_abs t N x r : (1 <= t <= 10)%Z -> (0 < N)%nat -> (r < 2 * N)%nat ->
  Rabs (mv (2 * N) (HM t (2 * N)) x r) <= mv (2 * N) (HA_ t (2 * N)) (fun j => Rabs (x j)) r.
Proof.
  intros Ht HN Hr. unfold HM, HA_.
  assert (G : forall (f : list R) i, Rabs (rsum (length f) (fun k => nth k f 0 * x ((2 * i + k) mod (2 * N))%nat)) <=
     rsum (length (map Rabs f)) (fun k => nth k (map Rabs f) 0 * Rabs (x ((2 * i + k) mod (2 * N))%nat))).
  { intros f i. rewrite map_length. eapply Rle_trans; [apply rabs_sum|]. apply rsum_le. intros k _. rewrite nth_abs, Rabs_mult. lra. }
  destruct (Nat.lt_ge_cases r N) as [Hl|Hl].
  - destruct (AM_A (map Rabs (@lo_r R exactR t)) (map Rabs (@hi_r R exactR t)) N (fun j => Rabs (x j)) r Hl) as [-> _].
    destruct (AM_A (@lo_r R exactR t) (@hi_r R exactR t) N x r Hl) as [-> _]. apply G.
  - destruct (AM_A (map Rabs (@lo_r R exactR t)) (map Rabs (@hi_r R exactR t)) N (fun j => Rabs (x j)) (r - N) ltac:(lia)) as [_ E1].
    destruct (AM_A (@lo_r R exactR t) (@hi_r R exactR t) N x (r - N) ltac:(lia)) as [_ E2].
    replace (N + (r - N))%nat with r in E1, E2 by lia. rewrite E1, E2. apply G.
Qed.

Section Round.
Variables (u eta : R) (A : Arith R).
Hypothesis (HR : rounding u eta A) (Hu : 0 <= u) (Heta : 0 <= eta).

Lemma peak_gain_1 t : (1 <= t <= 10)%Z -> 1 <= peak_gain u t.
Proof.
  intros Ht. unfold peak_gain. pose proof (upow u Hu (2 * Z.to_nat t + 4)) as U.
  assert (C : 1 <= Q2R (coefficient_sum t)).
  { revert t Ht U. intros t Ht _. assert (Q : (1 <= coefficient_sum t)%Q).
    { assert (H : (t = 1 \/ t = 2 \/ t = 3 \/ t = 4 \/ t = 5 \/ t = 6 \/ t = 7 \/ t = 8 \/ t = 9 \/ t = 10)%Z) by lia.
      repeat (destruct H as [->|H]; [unfold Qle; simpl; lia|]). subst. unfold Qle; simpl; lia. }
    apply Qle_Rle in Q. rewrite RMicromega.Q2R_1 in Q. exact Q. }
  assert (S : 1 <= sqrt 2) by (rewrite <- sqrt_1 at 1; apply sqrt_le_1_alt; lra).
  assert (SC : 1 <= sqrt 2 * Q2R (coefficient_sum t)) by nra. nra.
Qed.
Lemma peak_under_0 t : 0 <= peak_under u eta t.
Proof. unfold peak_under. pose proof (upow u Hu (2 * Z.to_nat t)). pose proof (pos_INR (Z.to_nat t)). repeat apply Rmult_le_pos; lra. Qed.

Lemma row_peak (v : R) t N x r M : (1 <= t <= 10)%Z -> (Z.to_nat t <= N)%nat -> (r < 2 * N)%nat ->
  Rabs (v - mv (2 * N) (HM t (2 * N)) x r) <= g_ u t * mv (2 * N) (HA_ t (2 * N)) (fun j => Rabs (x j)) r + n_ u eta t ->
  (forall j, (j < 2 * N)%nat -> Rabs (x j) <= M) -> Rabs v <= peak_gain u t * M + peak_under u eta t.
Proof.
  intros Ht HN Hr H HX.
  assert (M0 : 0 <= M) by (eapply Rle_trans; [apply Rabs_pos|apply (HX 0%nat); lia]).
  pose proof (mv_abs t N x r Ht ltac:(lia) Hr) as E1.
  pose proof (mv_le (2 * N) (HA_ t (2 * N)) (fun j => Rabs (x j)) M (HA_pos t (2 * N)) HX r) as E2.
  destruct (HA_sums t N Ht HN) as [E3 _]. specialize (E3 r Hr).
  assert (E4 : M * mv (2 * N) (HA_ t (2 * N)) (fun _ => 1) r <= M * hsum t) by (apply Rmult_le_compat_l; auto).
  pose proof (gam_pos u Hu (2 * Z.to_nat t)) as Hg.
  pose proof (Rabs_triang (v - mv (2 * N) (HM t (2 * N)) x r) (mv (2 * N) (HM t (2 * N)) x r)) as T.
  replace (v - mv (2 * N) (HM t (2 * N)) x r + mv (2 * N) (HM t (2 * N)) x r) with v in T by ring.
  assert (E5 : g_ u t * mv (2 * N) (HA_ t (2 * N)) (fun j => Rabs (x j)) r <= g_ u t * (M * hsum t)) by (apply Rmult_le_compat_l; [exact Hg|lra]).
  assert (E6 : n_ u eta t = peak_under u eta t).
  { unfold n_, nu, peak_under. rewrite (mult_INR 2 (Z.to_nat t)). simpl (INR 2). ring. }
  assert (E7 : peak_gain u t * M = g_ u t * (M * hsum t) + M * hsum t).
  { unfold peak_gain, g_, gam. fold (hsum t). ring. }
  lra.
Qed.

Variable g : geom.
Hypothesis G : gwf g.
Notation t := (gt g).
Notation K := (gK g).
Notation a := (peak_gain u t).
Notation v := (peak_under u eta t).

Lemma ANA_peak s y M : (s < K)%nat -> (forall i j, (i < hs g s)%nat -> (j < ws g s)%nat -> Rabs (y i j) <= M) ->
  forall i j, (i < hs g s)%nat -> (j < ws g s)%nat -> Rabs (@ANA R A g s y i j) <= a ^ np g * (M + INR (np g) * v).
Proof.
  intros Hs HM i j Hi Hj. pose proof (hs_step g s G Hs) as (Hh & Hh2). pose proof (gt_range g s G Hs) as Ht.
  pose proof (peak_gain_1 t Ht) as A1. pose proof (peak_under_0 t) as V0.
  assert (M0 : 0 <= M) by (eapply Rle_trans; [apply Rabs_pos|apply (HM i j); auto]).
  unfold np. destruct (gdim_cases g G) as [E|E].
  - assert (Ej : j = 0%nat) by (rewrite (ws_1 g s E) in Hj; lia). subst j.
    assert (P : Rabs (@ANA R A g s y i 0) <= a * M + v).
    { unfold ANA. rewrite E. cbn [Nat.eqb].
      destruct (Nat.ltb_spec i (hs g (S s))).
      + destruct (afilt_both u eta A HR Hu Heta t (hs g (S s)) (fun k => y k 0%nat) i Ht ltac:(lia)) as [H1 _].
        apply (row_peak _ t (hs g (S s)) (fun k => y k 0%nat) i M Ht); [lia|lia|rewrite Hh at 1; exact H1|]. intros k Hk. apply HM; lia.
      + destruct (afilt_both u eta A HR Hu Heta t (hs g (S s)) (fun k => y k 0%nat) (i - hs g (S s)) Ht ltac:(lia)) as [_ H1].
        replace (hs g (S s) + (i - hs g (S s)))%nat with i in H1 by lia.
        apply (row_peak _ t (hs g (S s)) (fun k => y k 0%nat) i M Ht); [lia|lia|rewrite Hh at 1; exact H1|]. intros k Hk. apply HM; lia. }
    rewrite E. cbn [Nat.eqb pow INR]. assert (v <= a * v) by nra. lra.
  - pose proof (ws_step g s G E Hs) as (Hw & Hw2).
    set (y1 := fun i j => @rowdot R A (srow_at (@dm R A t (ws g s)) j) (y i)).
    assert (P1 : forall i j, (i < hs g s)%nat -> (j < ws g s)%nat -> Rabs (y1 i j) <= a * M + v).
    { intros i' j' Hi' Hj'. unfold y1. rewrite Hw in Hj' |- *.
      apply (row_peak _ t (ws g (S s)) (y i') j' M Ht); [lia|lia|apply (row_err u eta A HR Hu Heta t _ j' (y i')); auto; lia|].
      intros k Hk. apply HM; [auto|lia]. }
    assert (P2 : Rabs (@sep R A (@dm R A t (ws g s)) (@dm R A t (hs g s)) y i j) <= a * (a * M + v) + v).
    { change (@sep R A (@dm R A t (ws g s)) (@dm R A t (hs g s)) y i j) with (@rowdot R A (srow_at (@dm R A t (hs g s)) i) (fun k => y1 k j)). rewrite Hh in Hi |- *.
      apply (row_peak _ t (hs g (S s)) (fun k => y1 k j) i (a * M + v) Ht); [lia|lia| |].
      - apply (row_err u eta A HR Hu Heta t _ i (fun k => y1 k j)); auto; lia.
      - intros k Hk. apply P1; [lia|auto]. }
    unfold ANA. rewrite E. cbn [Nat.eqb]. eapply Rle_trans; [exact P2|].
    cbn [pow INR]. assert (v <= a * v) by nra. assert (a * v <= a * (a * v)) by (apply Rmult_le_compat_l; lra). lra.
Qed.

Definition pk n B := a ^ n * (B + INR n * v).
Lemma pk_step n B : (1 <= t <= 10)%Z -> 0 <= B -> a ^ np g * (pk n B + INR (np g) * v) <= pk (n + np g) B.
Proof.
  intros Ht HB. unfold pk. rewrite pow_add, plus_INR. pose proof (peak_gain_1 t Ht) as A1. pose proof (peak_under_0 t) as V0.
  pose proof (pow_ge_1 a n A1) as P1. pose proof (pow_ge_1 a (np g) A1) as P2. pose proof (pos_INR n) as I1. pose proof (pos_INR (np g)) as I2.
  assert (Q : 0 <= a ^ np g * ((a ^ n - 1) * (INR (np g) * v))).
  { apply Rmult_le_pos; [lra|]. apply Rmult_le_pos; [lra|]. apply Rmult_le_pos; auto. }
  replace (a ^ n * a ^ np g * (B + (INR n + INR (np g)) * v)) with
    (a ^ np g * (a ^ n * (B + INR n * v) + INR (np g) * v) + a ^ np g * ((a ^ n - 1) * (INR (np g) * v))) by ring.
  lra.
Qed.
Lemma pk_mono n m B : (1 <= t <= 10)%Z -> 0 <= B -> (n <= m)%nat -> pk n B <= pk m B.
Proof.
  intros Ht HB H. unfold pk. pose proof (peak_gain_1 t Ht) as A1. pose proof (peak_under_0 t) as V0. pose proof (pos_INR n) as I1.
  pose proof (pow_ge_1 a n A1). pose proof (le_INR _ _ H).
  apply Rmult_le_compat.
  - lra.
  - assert (0 <= INR n * v) by (apply Rmult_le_pos; auto). lra.
  - apply Rle_pow; auto.
  - assert (INR n * v <= INR m * v) by (apply Rmult_le_compat_r; auto). lra.
Qed.
Lemma ap_peak x B s : (forall i j, (i < hs g 0)%nat -> (j < ws g 0)%nat -> Rabs (x i j) <= B) -> 0 <= B -> (s <= K)%nat ->
  forall i j, (i < hs g s)%nat -> (j < ws g s)%nat -> Rabs (@ap R A g x s i j) <= pk (np g * s) B.
Proof.
  intros HB B0. induction s as [|s IH]; intros Hs i j Hi Hj.
  - rewrite Nat.mul_0_r. unfold pk. cbn [pow INR ap]. rewrite Rmult_0_l, Rplus_0_r, Rmult_1_l. auto.
  - assert (HsK : (s < K)%nat) by lia. pose proof (gt_range g s G HsK) as Ht.
    rewrite (ana_low (AT := A) g x s i j HsK Hi). destruct (level_le g G s HsK) as [L1 L2].
    eapply Rle_trans; [apply (ANA_peak s _ (pk (np g * s) B) HsK); auto; try lia; intros; apply IH; lia|].
    replace (np g * S s)%nat with (np g * s + np g)%nat by lia. apply pk_step; auto.
Qed.
End Round.

Section P.
Variables (u eta : R) (A : Arith R).
Hypothesis (HR : rounding u eta A) (Hu : 0 <= u) (Heta : 0 <= eta).
Variable p : params.
Hypothesis HA : accepted p.
Notation g := (geom_of p).

Lemma peak_pk n B : peak u eta p n B = pk u eta g n B.
Proof. unfold peak, pk. rewrite <- (geom_t p HA). reflexivity. Qed.

(** every coefficient of a subband *)
Lemma coefficient_peak m B s i d : shaped p m -> 0 <= B -> Forall (fun x => Rabs x <= B) (elts m) ->
  (s < nsteps p)%nat -> (i < bands p)%nat -> nth_error (@dec_of p R A null_denoiser m) (s * bands p + i) = Some d ->
  Forall (fun x => Rabs x <= peak u eta p (passes p * (s + 1)) B) (elts d).
Proof.
  intros (W & Rm & Cm) B0 HB Hs Hi Hd. rewrite <- (spw_bands p HA) in *. rewrite <- (K_nsteps p HA) in Hs.
  destruct (@detA_some A g (@padf p R A m) s i Hi) as [f Hf].
  rewrite (@dec_details R A p m s i f Hs Hf) in Hd. inversion Hd; subst d; clear Hd.
  apply Forall_forall. intros x Hx. unfold mk in Hx. cbn [elts] in Hx.
  assert (Q : exists i j, (i < hs g (S s))%nat /\ (j < ws g (S s))%nat /\ x = f i j).
  { apply in_map_iff in Hx. destruct Hx as (k & <- & Hk). apply in_seq in Hk. destruct (idx_inv k _ _ (proj2 Hk)) as (Q1 & Q2 & _). eauto. }
  destruct Q as (r & c & Hr & Hc & ->).
  pose proof (geom_wf p HA) as G. destruct (level_le g G s Hs) as [L1 L2]. pose proof (hs_step g s G Hs) as (Hh & Hh2).
  rewrite (ana_det (AT := A) g G (@padf p R A m) s i r c f Hs Hf).
  assert (BND : forall i j, (i < hs g 0)%nat -> (j < ws g 0)%nat -> Rabs (@padf p R A m i j) <= B).
  { intros i' j' _ _. unfold padf, mel.
    match goal with |- context [nth ?n ?l ?d] => destruct (nth_in_or_default n l d) as [H'|H'] end.
    - rewrite Forall_forall in HB. auto.
    - rewrite H', (rounding_zero _ _ _ HR), Rabs_R0. auto. }
  assert (OF : (offr i (hs g (S s)) r < hs g s)%nat /\ (offc i (ws g (S s)) c < ws g s)%nat).
  { destruct (gdim_cases g G) as [E|E].
    - assert (i = 0%nat) by (unfold gspw in Hi; rewrite E in Hi; cbn in Hi; lia). subst i. cbn [offr offc Nat.eqb].
      rewrite (ws_1 g s E), (ws_1 g (S s) E) in *. unfold offr, offc; cbn [Nat.eqb]. lia.
    - pose proof (ws_step g s G E Hs) as (Hw & Hw2). rewrite (spw_2 g E) in Hi.
      destruct i as [|[|[|i]]]; unfold offr, offc; cbn [Nat.eqb]; lia. }
  rewrite peak_pk. replace (passes p * (s + 1))%nat with (np g * s + np g)%nat by (rewrite (np_passes p HA); lia).
  pose proof (gt_range g s G Hs) as Ht.
  eapply Rle_trans; [|apply (pk_step u eta Hu Heta g (np g * s) B Ht B0)].
  apply (ANA_peak u eta A HR Hu Heta g G s _ (pk u eta g (np g * s) B) Hs); try apply OF.
  apply (ap_peak u eta A HR Hu Heta g G _ B s BND B0). lia.
Qed.
Lemma approximation_peak m B d : shaped p m -> 0 <= B -> Forall (fun x => Rabs x <= B) (elts m) ->
  nth_error (@dec_of p R A null_denoiser m) (nsteps p * bands p) = Some d ->
  Forall (fun x => Rabs x <= peak u eta p (passes p * nsteps p) B) (elts d).
Proof.
  intros (W & Rm & Cm) B0 HB Hd. rewrite <- (spw_bands p HA), <- (K_nsteps p HA) in *.
  rewrite (@dec_approx R A p m) in Hd. inversion Hd; subst d; clear Hd.
  apply Forall_forall. intros x Hx. unfold apm, mk in Hx. cbn [elts] in Hx.
  assert (Q : exists i j, (i < hs g (gK g))%nat /\ (j < ws g (gK g))%nat /\ x = @ap R A g (@padf p R A m) (gK g) i j).
  { apply in_map_iff in Hx. destruct Hx as (k & <- & Hk). apply in_seq in Hk. destruct (idx_inv k _ _ (proj2 Hk)) as (Q1 & Q2 & _). eauto. }
  destruct Q as (r & c & Hr & Hc & ->).
  assert (BND : forall i j, (i < hs g 0)%nat -> (j < ws g 0)%nat -> Rabs (@padf p R A m i j) <= B).
  { intros i' j' _ _. unfold padf, mel.
    match goal with |- context [nth ?n ?l ?d] => destruct (nth_in_or_default n l d) as [H'|H'] end.
    - rewrite Forall_forall in HB. auto.
    - rewrite H', (rounding_zero _ _ _ HR), Rabs_R0. auto. }
  rewrite peak_pk, <- (np_passes p HA). apply (ap_peak u eta A HR Hu Heta g (geom_wf p HA) _ B (gK g) BND B0); auto.
Qed.
End P.
