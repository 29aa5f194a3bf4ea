(** * P_Round2: error of a decomposition and a composition in rounded arithmetic. *)
Require Import List Bool Arith ZArith QArith Qabs Qreals Lia Reals Lra.
Require Import ZifyBool.
Require Import Verif.M_Base Verif.M_Wavelet Verif.M_Buffer Verif.M_Real Verif.P_Base Verif.P_Wavelet Verif.P_Buffer.
Require Import Verif.S_Exact Verif.S_Round Verif.P_Sum Verif.P_Lin Verif.P_PR Verif.P_L2 Verif.P_Rec Verif.P_Rel Verif.P_Round.
Import ListNotations.
Open Scope R_scope.

Lemma nrm_mono h w x y : (forall i j, (i < h)%nat -> (j < w)%nat -> Rabs (x i j) <= y i j) -> nrm h w x <= nrm h w y.
Proof.
  intros H. unfold nrm. apply sqrt_le_1_alt. apply rsum2_le. intros i j Hi Hj.
  rewrite <- sq_abs. unfold sq. pose proof (Rabs_pos (x i j)). specialize (H i j Hi Hj).
  apply Rmult_le_compat; auto.
Qed.
Lemma nrm_T h w x : nrm h w x = nrm w h (fun j i => x i j).
Proof. unfold nrm. rewrite (rsum2_swap h w). reflexivity. Qed.
Lemma nrm_minus h w x y : nrm h w x <= nrm h w y + nrm h w (fun i j => x i j - y i j).
Proof.
  rewrite (nrm_ext h w x (fun i j => y i j + (x i j - y i j))) by (intros; ring). apply nrm_triang.
Qed.

Lemma pass_rows h w (F : nat -> nat -> R) (L La : (nat -> R) -> nat -> R) g H v (x : nat -> nat -> R) :
  0 <= g -> 0 <= H -> 0 <= v ->
  (forall i j, (i < h)%nat -> (j < w)%nat -> Rabs (F i j - L (x i) j) <= g * La (fun k => Rabs (x i k)) j + v) ->
  (forall z, nrm1 w (La z) <= sq H * nrm1 w z) ->
  nrm h w (fun i j => F i j - L (x i) j) <= g * H * nrm h w x + sqrt (INR (h * w)) * v.
Proof.
  intros Hg HH Hv HE HL.
  eapply Rle_trans; [apply nrm_mono; exact HE|].
  eapply Rle_trans; [apply nrm_triang|]. apply Rplus_le_compat.
  - rewrite nrm_scal, Rabs_pos_eq, Rmult_assoc by auto. apply Rmult_le_compat_l; auto.
    eapply Rle_trans; [apply (nrm_rows h w (fun i k => Rabs (x i k)) _ H); auto|].
    apply Rmult_le_compat_l; auto. apply Req_le. unfold nrm. f_equal. apply rsum2_ext. intros. apply sq_abs.
  - apply nrm_bound; auto. intros. rewrite Rabs_pos_eq; auto. apply Rle_refl.
Qed.
Lemma pass_cols h w (F : nat -> nat -> R) (L La : (nat -> R) -> nat -> R) g H v (x : nat -> nat -> R) :
  0 <= g -> 0 <= H -> 0 <= v ->
  (forall i j, (i < h)%nat -> (j < w)%nat ->
     Rabs (F i j - L (fun k => x k j) i) <= g * La (fun k => Rabs (x k j)) i + v) ->
  (forall z, nrm1 h (La z) <= sq H * nrm1 h z) ->
  nrm h w (fun i j => F i j - L (fun k => x k j) i) <= g * H * nrm h w x + sqrt (INR (h * w)) * v.
Proof.
  intros Hg HH Hv HE HL. rewrite (nrm_T h w), (nrm_T h w x), (Nat.mul_comm h w).
  apply (pass_rows w h (fun j i => F i j) L La g H v (fun j i => x i j)); auto.
Qed.

Lemma two_pass h w (x y1 l1 out l2y l2l : nat -> nat -> R) b d k : 0 <= d -> 0 <= b ->
  nrm h w (fun i j => y1 i j - l1 i j) <= d * nrm h w x + k ->
  nrm h w (fun i j => out i j - l2y i j) <= d * nrm h w y1 + k ->
  nrm h w l1 <= b * nrm h w x ->
  nrm h w (fun i j => l2y i j - l2l i j) <= b * nrm h w (fun i j => y1 i j - l1 i j) ->
  nrm h w (fun i j => out i j - l2l i j) <= ((b + d) * (b + d) - b * b) * nrm h w x + (b + d + 1) * k.
Proof.
  intros Hd Hb H1 H2 H3 H4.
  rewrite (nrm_ext h w _ (fun i j => (out i j - l2y i j) + (l2y i j - l2l i j))) by (intros; ring).
  eapply Rle_trans; [apply nrm_triang|].
  pose proof (nrm_minus h w y1 l1) as H5.
  set (X := nrm h w x) in *. set (Y := nrm h w y1) in *. set (D := nrm h w (fun i j => y1 i j - l1 i j)) in *.
  assert (HY : Y <= (b + d) * X + k) by lra.
  assert (d * Y <= d * ((b + d) * X + k)) by (apply Rmult_le_compat_l; auto).
  assert (b * D <= b * (d * X + k)) by (apply Rmult_le_compat_l; auto).
  apply Rle_trans with (d * ((b + d) * X + k) + k + b * (d * X + k)); [lra|]. apply Req_le. ring.
Qed.

Lemma rows_gain h w W f x : near_id w W f -> 0 <= f -> nrm h w (fun i j => mv w W (x i) j) <= (1 + f) * nrm h w x.
Proof.
  intros N Hf. apply nrm_rows; [lra|]. intros i Hi. eapply Rle_trans; [apply (mv_l2 w W f); auto|].
  apply Rmult_le_compat_r; [apply rsum_nonneg; intros; apply sq_pos|]. apply one_le; auto.
Qed.
Lemma cols_gain h w H f x : near_id h H f -> 0 <= f ->
  nrm h w (fun i j => mv h H (fun k => x k j) i) <= (1 + f) * nrm h w x.
Proof.
  intros N Hf. apply nrm_cols; [lra|]. intros i Hi. eapply Rle_trans; [apply (mv_l2 h H f); auto|].
  apply Rmult_le_compat_r; [apply rsum_nonneg; intros; apply sq_pos|]. apply one_le; auto.
Qed.
Lemma rowsT_gain h w W f x : near_id w W f -> 0 <= f -> nrm h w (fun i j => mvT w W (x i) j) <= (1 + f) * nrm h w x.
Proof.
  intros N Hf. apply nrm_rows; [lra|]. intros i Hi. eapply Rle_trans; [apply (mvT_l2 w W f); auto|].
  apply Rmult_le_compat_r; [apply rsum_nonneg; intros; apply sq_pos|]. apply one_le; auto.
Qed.
Lemma colsT_gain h w H f x : near_id h H f -> 0 <= f ->
  nrm h w (fun i j => mvT h H (fun k => x k j) i) <= (1 + f) * nrm h w x.
Proof.
  intros N Hf. apply nrm_cols; [lra|]. intros i Hi. eapply Rle_trans; [apply (mvT_l2 h H f); auto|].
  apply Rmult_le_compat_r; [apply rsum_nonneg; intros; apply sq_pos|]. apply one_le; auto.
Qed.
Lemma mv_minus n M x y i : mv n M (fun k => x k - y k) i = mv n M x i - mv n M y i.
Proof. unfold mv. rewrite <- rsum_minus. apply rsum_ext. intros; ring. Qed.
Lemma mvT_minus n M x y i : mvT n M (fun k => x k - y k) i = mvT n M x i - mvT n M y i.
Proof. unfold mvT. rewrite <- rsum_minus. apply rsum_ext. intros; ring. Qed.

(** one level as a whole, in any arithmetic *)
Section Lev.
Context {T : Type} {AT : Arith T}.
Variable g : geom.
Definition ANA (s : nat) (y : nat -> nat -> T) (i j : nat) : T :=
  if Nat.eqb (gdim g) 1 then
    (if Nat.ltb i (hs g (S s)) then afilt (lo_r (gt g)) (hs g s) (fun i' => y i' 0%nat) i
     else afilt (hi_r (gt g)) (hs g s) (fun i' => y i' 0%nat) (i - hs g (S s))%nat)
  else sep (dm (gt g) (ws g s)) (dm (gt g) (hs g s)) y i j.
Definition SYN (s : nat) (z : nat -> nat -> T) (i j : nat) : T :=
  if Nat.eqb (gdim g) 1 then
    sfilt (rev (lo_r (gt g))) (rev (hi_r (gt g))) (hs g (S s)) (fun k => z k 0%nat) (fun k => z (hs g (S s) + k)%nat 0%nat) i
  else sep (dmT (gt g) (ws g s)) (dmT (gt g) (hs g s)) z i j.

Hypothesis G : gwf g.

Lemma ana_low x s i j : (s < gK g)%nat -> (i < hs g (S s))%nat -> ap g x (S s) i j = ANA s (ap g x s) i j.
Proof.
  intros Hs Hi. cbn [ap]. unfold ana_a, ANA. destruct (Nat.eqb (gdim g) 1); [|reflexivity].
  destruct (Nat.ltb_spec i (hs g (S s))); [reflexivity|lia].
Qed.
Lemma ana_det x s b i j d : (s < gK g)%nat -> nth_error (detf g x s) b = Some d ->
  d i j = ANA s (ap g x s) (offr b (hs g (S s)) i) (offc b (ws g (S s)) j).
Proof.
  intros Hs Hd. pose proof (hs_step g s G Hs) as (Hh & Hh2).
  unfold detf, ana_d in Hd. unfold ANA.
  assert (Eh2 : (hs g s / 2 = hs g (S s))%nat) by (rewrite Hh, Nat.mul_comm, Nat.div_mul; lia).
  destruct (gdim_cases g G) as [E|E]; rewrite E in *; cbn [Nat.eqb] in *.
  - destruct b as [|b]; [|destruct b; discriminate]. inversion Hd; subst d.
    unfold offr; cbn [Nat.eqb]. destruct (Nat.ltb_spec (hs g (S s) + i) (hs g (S s))); [lia|].
    f_equal. lia.
  - pose proof (ws_step g s G E Hs) as (Hw & Hw2).
    assert (Ew2 : (ws g s / 2 = ws g (S s))%nat) by (rewrite Hw, Nat.mul_comm, Nat.div_mul; lia).
    rewrite Eh2, Ew2 in Hd.
    destruct b as [|[|[|b]]]; try (inversion Hd; subst d; reflexivity). destruct b; discriminate.
Qed.
Lemma syn_join s low ds i j : (s < gK g)%nat -> (i < hs g s)%nat -> (j < ws g s)%nat ->
  synth (gdim g) (gt g) (hs g (S s)) (ws g (S s)) low ds i j =
  SYN s (joined (hs g (S s)) (ws g (S s)) low (ds 0%nat) (ds 1%nat) (ds 2%nat)) i j.
Proof.
  intros Hs Hi Hj. pose proof (hs_step g s G Hs) as (Hh & Hh2). pose proof (gt_range g s G Hs) as Ht.
  unfold synth, SYN.
  destruct (gdim_cases g G) as [E|E]; rewrite E; cbn [Nat.eqb].
  - apply sfilt_ext; [lia| |]; intros k Hk; unfold joined; rewrite (ws_1 g (S s) E); change (0 <? 1)%nat with true.
    + destruct (Nat.ltb_spec k (hs g (S s))); [reflexivity|lia].
    + destruct (Nat.ltb_spec (hs g (S s) + k) (hs g (S s))); [lia|]. f_equal. lia.
  - pose proof (ws_step g s G E Hs) as (Hw & Hw2).
    rewrite !(Nat.mul_comm _ 2), <- Hh, <- Hw. reflexivity.
Qed.
End Lev.

Section Round.
Variables (u eta : R) (A : Arith R).
Hypothesis (HR : rounding u eta A) (Hu : 0 <= u) (Heta : 0 <= eta).
Variable g : geom.
Hypothesis G : gwf g.
Notation t := (gt g).
Notation K := (gK g).
Notation N2 s := (nrm (hs g s) (ws g s)).

Definition b1 : R := 1 + Q2R (filter_defect t).
Definition d1 : R := gam u (2 * Z.to_nat t) * hsum t.
Definition np : nat := if Nat.eqb (gdim g) 1 then 1 else 2.
Definition stepg : R := (b1 + d1) ^ np.
Definition kap1 : R := sqrt (INR (hs g 0 * ws g 0)) * nu u eta (2 * Z.to_nat t).
Definition kap : R := INR np * stepg * kap1.

Lemma b1_1 : 1 <= b1. Proof. unfold b1. pose proof (eps_pos t). lra. Qed.
Lemma d1_0 : 0 <= d1. Proof. apply Rmult_le_pos; [apply gam_pos; auto|apply hsum_pos]. Qed.
Lemma stepg_1 : 1 <= stepg.
Proof. apply pow_ge_1. pose proof b1_1. pose proof d1_0. lra. Qed.
Lemma kap1_0 : 0 <= kap1. Proof. apply Rmult_le_pos; [apply sqrt_pos|apply nu_pos; auto]. Qed.
Lemma kap_0 : 0 <= kap.
Proof.
  pose proof stepg_1. pose proof kap1_0. pose proof (pos_INR np).
  unfold kap. apply Rmult_le_pos; auto. apply Rmult_le_pos; auto. lra.
Qed.
Lemma gain_b1 : gain g = b1 ^ np.
Proof. unfold gain, epsW, b1, np. destruct (Nat.eqb (gdim g) 1); simpl; ring. Qed.

Lemma level_sizes s : (s <= K)%nat -> (hs g s <= hs g 0)%nat /\ (ws g s <= ws g 0)%nat.
Proof.
  induction s; intros H; [lia|]. destruct (IHs ltac:(lia)). pose proof (level_le g G s ltac:(lia)). lia.
Qed.
Lemma kap1_level s : (s <= K)%nat -> sqrt (INR (hs g s * ws g s)) * nu u eta (2 * Z.to_nat t) <= kap1.
Proof.
  intros H. unfold kap1. apply Rmult_le_compat_r; [apply nu_pos; auto|].
  apply sqrt_le_1_alt, le_INR. destruct (level_sizes s H). apply Nat.mul_le_mono; auto.
Qed.

Lemma ana_err s y : (s < K)%nat ->
  N2 s (fun i j => @ANA R A g s y i j - Ans g s y i j) <= (stepg - gain g) * N2 s y + kap.
Proof.
  intros Hs. pose proof (hs_step g s G Hs) as (Hh & Hh2). pose proof (gt_range g s G Hs) as Ht.
  pose proof (kap1_level s ltac:(lia)) as HK. pose proof (near_h g G s Hs) as NH.
  pose proof (gam_pos u Hu (2 * Z.to_nat t)) as Hg. pose proof (nu_pos u eta Hu Heta (2 * Z.to_nat t)) as Hn.
  pose proof b1_1 as B1. pose proof d1_0 as D0. pose proof kap1_0 as K0. pose proof stepg_1 as S1.
  rewrite gain_b1. unfold kap. unfold stepg in *. unfold np in *.
  unfold ANA, Ans, WM.
  assert (HLh : forall z, nrm1 (hs g s) (mv (hs g s) (HA_ t (hs g s)) z) <= sq (hsum t) * nrm1 (hs g s) z).
  { intros z. rewrite Hh. apply HA_l2; auto. lia. }
  destruct (gdim_cases g G) as [E|E]; rewrite E in *; cbn [Nat.eqb] in *.
  - rewrite (ws_1 g s E) in *.
    rewrite (nrm_ext _ _ _ (fun i j => @ANA R A g s y i j - mv (hs g s) (HM t (hs g s)) (fun k => y k j) i)).
    2:{ intros i j Hi Hj. replace j with 0%nat by lia. rewrite An_1. unfold ANA. rewrite E. reflexivity. }
    eapply Rle_trans; [apply (pass_cols (hs g s) 1 _ _ (mv (hs g s) (HA_ t (hs g s))) (gam u (2 * Z.to_nat t)) (hsum t) (nu u eta (2 * Z.to_nat t))); auto using hsum_pos|].
    + intros i j Hi Hj. replace j with 0%nat by lia. unfold ANA. rewrite E. cbn [Nat.eqb].
      destruct (Nat.ltb_spec i (hs g (S s))).
      * destruct (afilt_both u eta A HR Hu Heta t (hs g (S s)) (fun k => y k 0%nat) i Ht ltac:(lia)) as [H1 _].
        rewrite <- Hh in H1. exact H1.
      * destruct (afilt_both u eta A HR Hu Heta t (hs g (S s)) (fun k => y k 0%nat) (i - hs g (S s)) Ht ltac:(lia)) as [_ H1].
        rewrite <- Hh in H1. replace (hs g (S s) + (i - hs g (S s)))%nat with i in H1 by lia. exact H1.
    + fold d1. rewrite !pow_1 in *. simpl (INR 1). rewrite Rmult_1_l.
      assert (kap1 <= (b1 + d1) * kap1).
      { rewrite <- (Rmult_1_l kap1) at 1. apply Rmult_le_compat_r; auto. }
      lra.
  - pose proof (ws_step g s G E Hs) as (Hw & Hw2).
    pose proof (near_w g G s Hs) as NW. unfold WM, epsW in NW. rewrite E in NW. cbn [Nat.eqb] in NW.
    pose proof (eps_pos t) as EP.
    set (y1 := fun i j => @rowdot R A (srow_at (@dm R A t (ws g s)) j) (y i)).
    set (l1 := fun i j => mv (ws g s) (HM t (ws g s)) (y i) j).
    assert (P1 : N2 s (fun i j => y1 i j - l1 i j) <= d1 * N2 s y + kap1).
    { eapply Rle_trans; [apply (pass_rows (hs g s) (ws g s) y1 (mv (ws g s) (HM t (ws g s))) (mv (ws g s) (HA_ t (ws g s)))
         (gam u (2 * Z.to_nat t)) (hsum t) (nu u eta (2 * Z.to_nat t))); auto using hsum_pos|].
      - intros i j Hi Hj. unfold y1. rewrite Hw in Hj |- *. apply (row_err u eta A HR Hu Heta t _ j (y i)); auto; lia.
      - intros z. rewrite Hw. apply HA_l2; auto. lia.
      - fold d1. lra. }
    assert (P2 : N2 s (fun i j => @sep R A (@dm R A t (ws g s)) (@dm R A t (hs g s)) y i j - mv (hs g s) (HM t (hs g s)) (fun k => y1 k j) i)
       <= d1 * N2 s y1 + kap1).
    { eapply Rle_trans; [apply (pass_cols (hs g s) (ws g s) (fun i j => @sep R A (@dm R A t (ws g s)) (@dm R A t (hs g s)) y i j)
         (mv (hs g s) (HM t (hs g s))) (mv (hs g s) (HA_ t (hs g s)))
         (gam u (2 * Z.to_nat t)) (hsum t) (nu u eta (2 * Z.to_nat t)) y1); auto using hsum_pos|].
      - intros i j Hi Hj. unfold sep. rewrite Hh in Hi |- *. apply (row_err u eta A HR Hu Heta t _ i (fun k => y1 k j)); auto; lia.
      - fold d1. lra. }
    pose proof (two_pass (hs g s) (ws g s) y y1 l1 _ _ (fun i j => mv (hs g s) (HM t (hs g s)) (fun k => l1 k j) i)
       b1 d1 kap1 D0 ltac:(lra) P1 P2 (rows_gain _ _ _ _ _ NW EP)) as H.
    assert (P3 : N2 s (fun i j => mv (hs g s) (HM t (hs g s)) (fun k => y1 k j) i - mv (hs g s) (HM t (hs g s)) (fun k => l1 k j) i) <=
       b1 * N2 s (fun i j => y1 i j - l1 i j)).
    { rewrite (nrm_ext _ _ _ (fun i j => mv (hs g s) (HM t (hs g s)) (fun k => y1 k j - l1 k j) i)) by (intros; rewrite mv_minus; reflexivity).
      apply (cols_gain _ _ _ _ (fun k j => y1 k j - l1 k j) NH EP). }
    specialize (H P3). unfold An. fold (l1).
    eapply Rle_trans; [exact H|]. simpl (INR 2). cbn [pow] in *. rewrite !Rmult_1_r in *.
    assert ((b1 + d1 + 1) * kap1 <= 2 * ((b1 + d1) * (b1 + d1)) * kap1).
    { apply Rmult_le_compat_r; auto. nra. }
    lra.
Qed.

Lemma syn_err s z : (s < K)%nat ->
  N2 s (fun i j => @SYN R A g s z i j - Sys g s z i j) <= (stepg - gain g) * N2 s z + kap.
Proof.
  intros Hs. pose proof (hs_step g s G Hs) as (Hh & Hh2). pose proof (gt_range g s G Hs) as Ht.
  pose proof (kap1_level s ltac:(lia)) as HK. pose proof (near_h g G s Hs) as NH.
  pose proof (gam_pos u Hu (2 * Z.to_nat t)) as Hg. pose proof (nu_pos u eta Hu Heta (2 * Z.to_nat t)) as Hn.
  pose proof b1_1 as B1. pose proof d1_0 as D0. pose proof kap1_0 as K0. pose proof stepg_1 as S1.
  rewrite gain_b1. unfold kap. unfold stepg in *. unfold np in *.
  unfold Sys, WM.
  assert (HLh : forall z, nrm1 (hs g s) (mvT (hs g s) (HA_ t (hs g s)) z) <= sq (hsum t) * nrm1 (hs g s) z).
  { intros z'. rewrite Hh. apply HA_l2; auto. lia. }
  destruct (gdim_cases g G) as [E|E]; rewrite E in *; cbn [Nat.eqb] in *.
  - rewrite (ws_1 g s E) in *.
    rewrite (nrm_ext _ _ _ (fun i j => @SYN R A g s z i j - mvT (hs g s) (HM t (hs g s)) (fun k => z k j) i)).
    2:{ intros i j Hi Hj. replace j with 0%nat by lia. rewrite Sy_1. reflexivity. }
    eapply Rle_trans; [apply (pass_cols (hs g s) 1 _ _ (mvT (hs g s) (HA_ t (hs g s))) (gam u (2 * Z.to_nat t)) (hsum t) (nu u eta (2 * Z.to_nat t))); auto using hsum_pos|].
    + intros i j Hi Hj. replace j with 0%nat by lia. unfold SYN. rewrite E. cbn [Nat.eqb].
      pose proof (sfilt_err u eta A HR Hu Heta t (hs g (S s)) (fun k => z k 0%nat) (fun k => z (hs g (S s) + k)%nat 0%nat) i Ht
         ltac:(lia) ltac:(lia)) as H1. cbv zeta in H1. rewrite <- Hh in H1.
      assert (EZ : forall r, (if Nat.ltb r (hs g (S s)) then z r 0%nat else z (hs g (S s) + (r - hs g (S s)))%nat 0%nat) = z r 0%nat).
      { intros r. destruct (Nat.ltb_spec r (hs g (S s))); auto. f_equal. lia. }
      rewrite (mvT_ext (hs g s) (HM t (hs g s)) _ (fun k => z k 0%nat)) in H1 by (intros; apply EZ).
      rewrite (mvT_ext (hs g s) (HA_ t (hs g s)) _ (fun k => Rabs (z k 0%nat))) in H1 by (intros; rewrite EZ; reflexivity).
      exact H1.
    + fold d1. rewrite !pow_1 in *. simpl (INR 1). rewrite Rmult_1_l.
      assert (kap1 <= (b1 + d1) * kap1).
      { rewrite <- (Rmult_1_l kap1) at 1. apply Rmult_le_compat_r; auto. }
      lra.
  - pose proof (ws_step g s G E Hs) as (Hw & Hw2).
    pose proof (near_w g G s Hs) as NW. unfold WM, epsW in NW. rewrite E in NW. cbn [Nat.eqb] in NW.
    pose proof (eps_pos t) as EP.
    rewrite (nrm_ext _ _ _ (fun i j => @sep R A (@dmT R A t (ws g s)) (@dmT R A t (hs g s)) z i j -
        Sy (hs g s) (ws g s) (HM t (hs g s)) (HM t (ws g s)) z i j)) by (intros; unfold SYN; rewrite E; reflexivity).
    set (y1 := fun i j => @rowdot R A (srow_at (@dmT R A t (ws g s)) j) (z i)).
    set (l1 := fun i j => mvT (ws g s) (HM t (ws g s)) (z i) j).
    assert (P1 : N2 s (fun i j => y1 i j - l1 i j) <= d1 * N2 s z + kap1).
    { eapply Rle_trans; [apply (pass_rows (hs g s) (ws g s) y1 (mvT (ws g s) (HM t (ws g s))) (mvT (ws g s) (HA_ t (ws g s)))
         (gam u (2 * Z.to_nat t)) (hsum t) (nu u eta (2 * Z.to_nat t))); auto using hsum_pos|].
      - intros i j Hi Hj. unfold y1. rewrite Hw in Hj |- *. apply (rowT_err u eta A HR Hu Heta t _ j (z i)); auto; lia.
      - intros z'. rewrite Hw. apply HA_l2; auto. lia.
      - fold d1. lra. }
    assert (P2 : N2 s (fun i j => @sep R A (@dmT R A t (ws g s)) (@dmT R A t (hs g s)) z i j - mvT (hs g s) (HM t (hs g s)) (fun k => y1 k j) i)
       <= d1 * N2 s y1 + kap1).
    { eapply Rle_trans; [apply (pass_cols (hs g s) (ws g s) (fun i j => @sep R A (@dmT R A t (ws g s)) (@dmT R A t (hs g s)) z i j)
         (mvT (hs g s) (HM t (hs g s))) (mvT (hs g s) (HA_ t (hs g s)))
         (gam u (2 * Z.to_nat t)) (hsum t) (nu u eta (2 * Z.to_nat t)) y1); auto using hsum_pos|].
      - intros i j Hi Hj. unfold sep. rewrite Hh in Hi |- *. apply (rowT_err u eta A HR Hu Heta t _ i (fun k => y1 k j)); auto; lia.
      - fold d1. lra. }
    pose proof (two_pass (hs g s) (ws g s) z y1 l1 _ _ (fun i j => mvT (hs g s) (HM t (hs g s)) (fun k => l1 k j) i)
       b1 d1 kap1 D0 ltac:(lra) P1 P2 (rowsT_gain _ _ _ _ _ NW EP)) as H.
    assert (P3 : N2 s (fun i j => mvT (hs g s) (HM t (hs g s)) (fun k => y1 k j) i - mvT (hs g s) (HM t (hs g s)) (fun k => l1 k j) i) <=
       b1 * N2 s (fun i j => y1 i j - l1 i j)).
    { rewrite (nrm_ext _ _ _ (fun i j => mvT (hs g s) (HM t (hs g s)) (fun k => y1 k j - l1 k j) i)) by (intros; rewrite mvT_minus; reflexivity).
      apply (colsT_gain _ _ _ _ (fun k j => y1 k j - l1 k j) NH EP). }
    specialize (H P3). unfold Sy. fold (l1).
    eapply Rle_trans; [exact H|]. simpl (INR 2). cbn [pow] in *. rewrite !Rmult_1_r in *.
    assert ((b1 + d1 + 1) * kap1 <= 2 * ((b1 + d1) * (b1 + d1)) * kap1).
    { apply Rmult_le_compat_r; auto. nra. }
    lra.
Qed.

(** ch holds the details of x and its approximation, as the arithmetic computes them *)
Definition holdsA (ch : decomposition R) (x : nat -> nat -> R) : Prop :=
  (forall s b d, (s < K)%nat -> nth_error (@detf R A g x s) b = Some d ->
     forall i j, (i < hs g (S s))%nat -> (j < ws g (S s))%nat -> chf ch (s * gspw g + b) i j = d i j) /\
  (forall i j, (i < hs g K)%nat -> (j < ws g K)%nat -> chf ch (K * gspw g) i j = @ap R A g x K i j).

Notation apA := (@ap R A g).
Notation rcA := (@rc R A g).

Lemma detA_some x s b : (b < gspw g)%nat -> exists d, nth_error (@detf R A g x s) b = Some d.
Proof.
  intros Hb. rewrite <- (@detf_length R A g x s) in Hb. destruct (nth_error (@detf R A g x s) b) eqn:E; eauto.
  apply nth_error_None in E. lia.
Qed.
Lemma holdsA_det ch x s b i j : holdsA ch x -> (s < K)%nat -> (b < gspw g)%nat ->
  (i < hs g (S s))%nat -> (j < ws g (S s))%nat ->
  chf ch (s * gspw g + b) i j = @ANA R A g s (apA x s) (offr b (hs g (S s)) i) (offc b (ws g (S s)) j).
Proof.
  intros [H _] Hs Hb Hi Hj. destruct (detA_some x s b Hb) as [d Hd].
  rewrite (H s b d) by auto. apply ana_det; auto.
Qed.

Lemma joinA ch x s low i j : holdsA ch x -> (s < K)%nat -> (i < hs g s)%nat -> (j < ws g s)%nat ->
  joined (hs g (S s)) (ws g (S s)) low (chf ch (s * gspw g + 0)) (chf ch (s * gspw g + 1)) (chf ch (s * gspw g + 2)) i j =
  @ANA R A g s (apA x s) i j +
  joined (hs g (S s)) (ws g (S s)) (fun i j => low i j - apA x (S s) i j) (fun _ _ => 0) (fun _ _ => 0) (fun _ _ => 0) i j.
Proof.
  intros HD Hs Hi Hj. set (y := @ANA R A g s (apA x s)).
  rewrite <- (joined_whole g G s y (fun i j => apA x (S s) i j)
                (fun i j => y (hs g (S s) + i)%nat j) (fun i j => y i (ws g (S s) + j)%nat)
                (fun i j => y (hs g (S s) + i)%nat (ws g (S s) + j)%nat)) by (auto; intros; apply (ana_low g); auto).
  unfold joined. pose proof (hs_step g s G Hs) as (Hh & Hh2).
  assert (Hd0 : forall i j, (i < hs g (S s))%nat -> (j < ws g (S s))%nat -> chf ch (s * gspw g + 0) i j = y (hs g (S s) + i)%nat j).
  { intros. rewrite (holdsA_det ch x) by (auto; apply spw_pos). reflexivity. }
  destruct (gdim_cases g G) as [E|E].
  - rewrite (ws_1 g s E) in *. rewrite (ws_1 g (S s) E) in *.
    destruct (Nat.ltb_spec j 1); [|lia].
    destruct (Nat.ltb_spec i (hs g (S s))); [ring|]. rewrite Hd0 by lia. ring.
  - pose proof (ws_step g s G E Hs) as (Hw & Hw2).
    assert (Hd1 : forall b i j, (b < 3)%nat -> (i < hs g (S s))%nat -> (j < ws g (S s))%nat ->
        chf ch (s * gspw g + b) i j = y (offr b (hs g (S s)) i) (offc b (ws g (S s)) j)).
    { intros. apply (holdsA_det ch x); auto. rewrite spw_2; auto. }
    destruct (Nat.ltb_spec j (ws g (S s))), (Nat.ltb_spec i (hs g (S s))).
    + ring.
    + rewrite Hd0 by lia. ring.
    + rewrite Hd1 by lia. unfold offr, offc; cbn [Nat.eqb]. ring.
    + rewrite Hd1 by lia. unfold offr, offc; cbn [Nat.eqb]. ring.
Qed.

Lemma Sys_minus s x y i j : Sys g s (fun i j => x i j - y i j) i j = Sys g s x i j - Sys g s y i j.
Proof.
  unfold Sys, Sy. rewrite <- mvT_minus. apply mvT_ext. intros. apply mvT_minus.
Qed.
Lemma Sys_nrm s z : (s < K)%nat -> N2 s (Sys g s z) <= gain g * N2 s z.
Proof. intros Hs. exact (Sy_nrm (hs g s) (ws g s) _ _ _ _ (near_h g G s Hs) (near_w g G s Hs) (eps_pos t) (epsW_pos g) z). Qed.
Lemma Ans_nrm s z : (s < K)%nat -> N2 s (Ans g s z) <= gain g * N2 s z.
Proof. intros Hs. exact (An_nrm (hs g s) (ws g s) _ _ _ _ (near_h g G s Hs) (near_w g G s Hs) (eps_pos t) (epsW_pos g) z). Qed.
Lemma gain_stepg : gain g <= stepg.
Proof.
  rewrite gain_b1. unfold stepg. apply pow_incr. pose proof b1_1. pose proof d1_0. lra.
Qed.

Lemma ANA_nrm s y : (s < K)%nat -> N2 s (@ANA R A g s y) <= stepg * N2 s y + kap.
Proof.
  intros Hs. eapply Rle_trans; [apply (nrm_minus _ _ _ (Ans g s y))|].
  pose proof (ana_err s y Hs). pose proof (Ans_nrm s y Hs). lra.
Qed.
Lemma apA_nrm x s : (s < K)%nat -> N2 (S s) (apA x (S s)) <= stepg * N2 s (apA x s) + kap.
Proof.
  intros Hs. pose proof (level_le g G s Hs) as [H1 H2].
  rewrite (nrm_ext _ _ (apA x (S s)) (@ANA R A g s (apA x s))) by (intros; apply (ana_low g); auto).
  eapply Rle_trans; [apply nrm_sub with (h := hs g s) (w := ws g s); auto|]. apply ANA_nrm; auto.
Qed.

(** one step of the composition against the level it rebuilds *)
Lemma rec_stepA ch x it : holdsA ch x -> (it < K)%nat ->
  let s := (K - S it)%nat in
  N2 s (fun i j => rcA ch (S it) i j - apA x s i j) <=
  stepg * N2 (S s) (fun i j => rcA ch it i j - apA x (S s) i j) + (stepg * stepg - 1) * N2 s (apA x s) + (stepg + 1) * kap.
Proof.
  intros HD Hit s. assert (Hs : (s < K)%nat) by (unfold s; lia).
  pose proof (level_le g G s Hs) as [L1 L2].
  set (dl := fun i j => rcA ch it i j - apA x (S s) i j).
  set (jd := joined (hs g (S s)) (ws g (S s)) dl (fun _ _ => 0) (fun _ _ => 0) (fun _ _ => 0)).
  set (xs := apA x s). set (y := @ANA R A g s xs).
  set (z := joined (hs g (S s)) (ws g (S s)) (rcA ch it) (chf ch (s * gspw g + 0)) (chf ch (s * gspw g + 1)) (chf ch (s * gspw g + 2))).
  assert (Ez : forall i j, (i < hs g s)%nat -> (j < ws g s)%nat -> z i j = y i j + jd i j)
    by (intros; apply joinA; auto).
  assert (Nj : N2 s jd = N2 (S s) dl) by (apply nrm_joined; auto).
  rewrite (nrm_ext _ _ _ (fun i j => (@SYN R A g s z i j - Sys g s z i j) +
     (Sys g s jd i j + (Sys g s (fun i j => y i j - Ans g s xs i j) i j + (Sys g s (Ans g s xs) i j - xs i j))))).
  2:{ intros i j Hi Hj. cbn [rc]. fold s. rewrite (syn_join g G) by auto. fold z. fold xs.
      rewrite Sys_minus.
      assert (E : Sys g s z i j = Sys g s y i j + Sys g s jd i j).
      { unfold Sys. rewrite (Sy_ext _ _ _ _ z (fun i j => 1 * y i j + 1 * jd i j)) by (intros; rewrite Ez by auto; ring).
        rewrite Sy_lin. ring. }
      rewrite E. ring. }
  eapply Rle_trans; [apply nrm_triang|].
  eapply Rle_trans; [apply Rplus_le_compat_l, nrm_triang|].
  eapply Rle_trans; [apply Rplus_le_compat_l, Rplus_le_compat_l, nrm_triang|].
  pose proof (syn_err s z Hs) as B1. pose proof (Sys_nrm s jd Hs) as B2. rewrite Nj in B2.
  pose proof (Sys_nrm s (fun i j => y i j - Ans g s xs i j) Hs) as B3.
  pose proof (ana_err s xs Hs) as B4. fold y in B4.
  assert (B5 : N2 s (fun i j => Sys g s (Ans g s xs) i j - xs i j) <= (gain g - 1) * N2 s xs)
    by exact (SyAn_near (hs g s) (ws g s) _ _ _ _ (near_h g G s Hs) (near_w g G s Hs) (eps_pos t) (epsW_pos g) xs).
  assert (B6 : N2 s z <= N2 s y + N2 (S s) dl).
  { rewrite (nrm_ext _ _ z (fun i j => y i j + jd i j)) by auto. rewrite <- Nj. apply nrm_triang. }
  pose proof (ANA_nrm s xs Hs) as B7. fold y in B7.
  pose proof (gain_1 g) as G1. pose proof gain_stepg as GS. pose proof kap_0 as K0.
  fold dl.
  set (X := N2 s xs) in *. set (Y := N2 s y) in *. set (Z := N2 s z) in *. set (E := N2 (S s) dl) in *.
  set (D := N2 s (fun i j => y i j - Ans g s xs i j)) in *.
  assert (HX : 0 <= X) by apply nrm_pos.
  assert ((stepg - gain g) * Z <= (stepg - gain g) * (stepg * X + kap + E)) by (apply Rmult_le_compat_l; lra).
  assert (gain g * D <= gain g * ((stepg - gain g) * X + kap)) by (apply Rmult_le_compat_l; lra).
  assert ((gain g - 1) * X <= (gain g * gain g - 1) * X) by (apply Rmult_le_compat_r; auto; nra).
  apply Rle_trans with ((stepg - gain g) * (stepg * X + kap + E) + kap +
     (gain g * E + (gain g * ((stepg - gain g) * X + kap) + (gain g * gain g - 1) * X))); [lra|].
  apply Req_le. ring.
Qed.

Lemma rec_errA ch x it : holdsA ch x -> (it <= K)%nat ->
  N2 (K - it)%nat (fun i j => rcA ch it i j - apA x (K - it) i j) <=
  (stepg ^ (2 * it) - 1) * N2 (K - it)%nat (apA x (K - it)) + 2 * INR it * stepg ^ (2 * it) * kap.
Proof.
  intros HD. pose proof stepg_1 as S1. pose proof kap_0 as K0. induction it as [|it IH]; intros Hit.
  - rewrite nrm_zero; [simpl; lra|]. intros i j Hi Hj. rewrite Nat.sub_0_r in *. cbn [rc].
    destruct HD as [_ HD]. rewrite HD by auto. ring.
  - specialize (IH ltac:(lia)). pose proof (rec_stepA ch x it HD ltac:(lia)) as ST. cbv zeta in ST.
    set (s := (K - S it)%nat) in *.
    replace (K - it)%nat with (S s) in IH by (unfold s; lia).
    assert (Hs : (s < K)%nat) by (unfold s; lia).
    pose proof (apA_nrm x s Hs) as B3.
    pose proof (nrm_pos (hs g s) (ws g s) (apA x s)) as Hx.
    set (E := N2 (S s) (fun i j => rcA ch it i j - apA x (S s) i j)) in *.
    set (X := N2 s (apA x s)) in *. set (X1 := N2 (S s) (apA x (S s))) in *.
    eapply Rle_trans; [exact ST|].
    replace (2 * S it)%nat with (S (S (2 * it))) by lia. cbn [pow]. rewrite S_INR.
    assert (P1 : 1 <= stepg ^ (2 * it)) by (apply pow_R1_Rle; auto).
    set (P := stepg ^ (2 * it)) in *. set (a := stepg) in *. set (n := INR it) in *.
    assert (Hn : 0 <= n) by apply pos_INR.
    assert ((P - 1) * X1 <= (P - 1) * (a * X + kap)) by (apply Rmult_le_compat_l; lra).
    assert (a * E <= a * ((P - 1) * (a * X + kap) + 2 * n * P * kap)) by (apply Rmult_le_compat_l; lra).
    apply Rle_trans with (a * ((P - 1) * (a * X + kap) + 2 * n * P * kap) + (a * a - 1) * X + (a + 1) * kap); [lra|].
    assert (Q : a * ((P - 1) * (a * X + kap) + 2 * n * P * kap) + (a * a - 1) * X + (a + 1) * kap =
       (a * (a * P) - 1) * X + (a * P + 1 + 2 * n * (a * P)) * kap) by ring.
    rewrite Q. apply Rplus_le_compat_l. apply Rmult_le_compat_r; auto.
    assert (1 <= a * P) by nra.
    assert (a * P <= a * (a * P)) by (rewrite <- (Rmult_1_l (a * P)) at 1; apply Rmult_le_compat_r; lra).
    assert (2 * n * (a * P) <= 2 * n * (a * (a * P))) by (apply Rmult_le_compat_l; lra).
    apply Rle_trans with (a * (a * P) + a * (a * P) + 2 * n * (a * (a * P))); [lra|]. apply Req_le. ring.
Qed.
End Round.
