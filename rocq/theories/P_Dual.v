(** * P_Dual: synthesis followed by analysis: the identity up to the same
    defect of the printed coefficients. *)
Require Import List Bool Arith ZArith QArith Qabs Qreals Lia Reals Lra.
Require Import ZifyBool.
Require Import Verif.M_Base Verif.M_Wavelet Verif.M_Buffer Verif.M_Real Verif.P_Base Verif.P_Wavelet Verif.P_Buffer.
Require Import Verif.S_Exact Verif.P_Sum Verif.P_Lin Verif.P_PR Verif.P_L2 Verif.P_Rec.
Import ListNotations.
Open Scope R_scope.

(** coefficient of the h-subband at i + e - t in the f-subband at i *)
Definition rQ (f h : list Q) (t e : nat) : Q :=
  qsum t (fun k =>
    if (k + 1 <=? e)%nat && (e <? k + 1 + t)%nat then
      Qred (2 * (nth (2 * k) f 0 * nth (2 * (k + t - e)) h 0 + nth (2 * k + 1) f 0 * nth (2 * (k + t - e) + 1) h 0))%Q
    else 0%Q).
Definition rowQ (f h : list Q) (t : nat) : Q :=
  Qred (qsum (2 * t) (fun e => Qabs (rQ f f t e - (if Nat.eqb e t then 1 else 0))%Q) + qsum (2 * t) (fun e => Qabs (rQ f h t e)))%Q.

Definition sh (N t i e : nat) : nat := ((i + N + e - t) mod N)%nat.

Lemma cross f h t N i (z : nat -> R) : (0 < t <= N)%nat ->
  rsum t (fun k => rsum t (fun b =>
     (up2 (nth (2 * k) f 0%Q) * up2 (nth (2 * b) h 0%Q) + up2 (nth (2 * k + 1) f 0%Q) * up2 (nth (2 * b + 1) h 0%Q))
     * z ((i + k + N - b) mod N)%nat)) =
  rsum (2 * t) (fun e => Q2R (rQ f h t e) * z (sh N t i e)).
Proof.
  intros Ht.
  transitivity (rsum t (fun k => rsum (2 * t) (fun e =>
     if (k + 1 <=? e)%nat && (e <? k + 1 + t)%nat then
       2 * (Q2R (nth (2 * k) f 0%Q) * Q2R (nth (2 * (k + t - e)) h 0%Q) +
            Q2R (nth (2 * k + 1) f 0%Q) * Q2R (nth (2 * (k + t - e) + 1) h 0%Q)) * z (sh N t i e)
     else 0))).
  { apply rsum_ext. intros k Hk. rewrite rsum_shift by lia. rewrite rsum_rev. apply rsum_ext. intros c Hc.
    rewrite !up2_mul. unfold sh.
    replace (k + t - (k + 1 + c))%nat with (t - 1 - c)%nat by lia.
    replace (i + N + (k + 1 + c) - t)%nat with (i + k + N - (t - 1 - c))%nat by lia. ring. }
  rewrite rsum_swap. apply rsum_ext. intros e He. unfold rQ. rewrite qsum_rsum, <- rsum_scal_r. apply rsum_ext. intros k Hk.
  destruct ((k + 1 <=? e)%nat && (e <? k + 1 + t)%nat).
  - rewrite Q2R_red, Q2R_mult, Q2R_plus, !Q2R_mult. replace (Q2R 2) with 2 by (unfold Q2R; simpl; lra). ring.
  - rewrite RMicromega.Q2R_0. ring.
Qed.

Lemma mod_pair i k p N : (p < 2)%nat -> (0 < N)%nat -> ((2 * i + (2 * k + p)) mod (2 * N) = 2 * ((i + k) mod N) + p)%nat.
Proof.
  intros Hp HN. replace (2 * i + (2 * k + p))%nat with (2 * (i + k) + p)%nat by lia.
  symmetry. apply Nat.mod_unique with (q := ((i + k) / N)%nat).
  - pose proof (Nat.mod_upper_bound (i + k) N). lia.
  - pose proof (Nat.div_mod (i + k) N). nia.
Qed.

Section Rows.
Variables (lo hi : list Q) (t N : nat).
Hypothesis (H1 : length lo = (2 * t)%nat) (H2 : length hi = (2 * t)%nat) (Ht : (0 < t <= N)%nat).
Let M := AM (map up2 lo) (map up2 hi) (2 * N).

Lemma row_of f i (z : nat -> R) : (i < N)%nat ->
  rsum (2 * t) (fun k => up2 (nth k f 0%Q) * mvT (2 * N) M z ((2 * i + k) mod (2 * N))%nat) =
  rsum (2 * t) (fun e => Q2R (rQ f lo t e) * z (sh N t i e)) +
  rsum (2 * t) (fun e => Q2R (rQ f hi t e) * z (N + sh N t i e)%nat).
Proof.
  intros Hi. rewrite rsum_pairs.
  rewrite <- (cross f lo t N i z Ht), <- (cross f hi t N i (fun k => z (N + k)%nat) Ht).
  rewrite <- rsum_plus. apply rsum_ext. intros k Hk.
  replace (2 * k)%nat with (2 * k + 0)%nat at 2 by lia. rewrite !mod_pair by lia.
  unfold M. assert (Hq : ((i + k) mod N < N)%nat) by (apply Nat.mod_upper_bound; lia).
  rewrite !(AM_T _ _ t) by (rewrite ?map_length; auto; lia).
  rewrite <- !rsum_plus, <- !rsum_scal, <- !rsum_plus. apply rsum_ext. intros b Hb.
  rewrite !nth_up, !Nat.add_0_r.
  replace (((i + k) mod N + N - b) mod N)%nat with ((i + k + N - b) mod N)%nat.
  - ring.
  - replace ((i + k) mod N + N - b)%nat with ((i + k) mod N + (N - b))%nat by lia.
    rewrite Nat.add_mod_idemp_l by lia. f_equal; lia.
Qed.

Lemma sh_lt i e : (sh N t i e < N)%nat.
Proof. unfold sh. apply Nat.mod_upper_bound. lia. Qed.
Lemma sh_center i : (i < N)%nat -> sh N t i t = i.
Proof.
  intros Hi. unfold sh. replace (i + N + t - t)%nat with (i + 1 * N)%nat by lia.
  rewrite Nat.mod_add by lia. apply Nat.mod_small; auto.
Qed.

Lemma row_bound f h i B (zf zh : nat -> R) eps : (i < N)%nat ->
  (forall j, (j < N)%nat -> Rabs (zf j) <= B) -> (forall j, (j < N)%nat -> Rabs (zh j) <= B) ->
  Qle_bool (rowQ f h t) eps = true ->
  Rabs (rsum (2 * t) (fun e => Q2R (rQ f f t e) * zf (sh N t i e)) +
        rsum (2 * t) (fun e => Q2R (rQ f h t e) * zh (sh N t i e)) - zf i) <= Q2R eps * B.
Proof.
  intros Hi Hf Hh HD. apply Qle_bool_iff in HD. apply Qle_Rle in HD.
  assert (HB0 : 0 <= B). { eapply Rle_trans; [apply Rabs_pos|apply (Hf i Hi)]. }
  assert (E : zf i = rsum (2 * t) (fun e => (if Nat.eqb e t then 1 else 0) * zf (sh N t i e))).
  { rewrite (rsum_single (2 * t) _ t).
    - rewrite Nat.eqb_refl, sh_center by auto. ring.
    - lia.
    - intros j _ Hj. destruct (Nat.eqb_spec j t); [lia|ring]. }
  rewrite E.
  match goal with |- Rabs (?a + ?b - ?c) <= _ => replace (a + b - c) with (a - c + b) by ring end.
  rewrite <- rsum_minus.
  eapply Rle_trans; [apply Rabs_triang|].
  eapply Rle_trans; [|apply Rmult_le_compat_r; [exact HB0|exact HD]].
  unfold rowQ. rewrite Q2R_red, Q2R_plus, !qsum_rsum, Rmult_plus_distr_r, <- !rsum_scal_r.
  apply Rplus_le_compat; (eapply Rle_trans; [apply rsum_abs|]); apply rsum_le; intros e He.
  - rewrite Q2R_abs, Q2R_minus.
    replace (Q2R (if Nat.eqb e t then 1 else 0)) with (if Nat.eqb e t then 1 else 0)
      by (destruct (Nat.eqb e t); [rewrite RMicromega.Q2R_1|rewrite RMicromega.Q2R_0]; reflexivity).
    rewrite <- Rmult_minus_distr_r, Rabs_mult. apply Rmult_le_compat_l; [apply Rabs_pos|]. apply Hf, sh_lt.
  - rewrite Q2R_abs, Rabs_mult. apply Rmult_le_compat_l; [apply Rabs_pos|]. apply Hh, sh_lt.
Qed.

Lemma AM_rows eps : Qle_bool (rowQ lo hi t) eps && Qle_bool (rowQ hi lo t) eps = true ->
  near_id (2 * N) (fun i j => M j i) (Q2R eps).
Proof.
  intros HD z B HB c Hc. apply andb_true_iff in HD as [D0 D1].
  change (mvT (2 * N) (fun i j => M j i) (mv (2 * N) (fun i j => M j i) z) c) with (mv (2 * N) M (mvT (2 * N) M z) c).
  assert (Hl : forall j, (j < N)%nat -> Rabs (z j) <= B) by (intros; apply HB; lia).
  assert (Hh : forall j, (j < N)%nat -> Rabs (z (N + j)%nat) <= B) by (intros; apply HB; lia).
  destruct (Nat.lt_ge_cases c N) as [H|H].
  - unfold M at 1. rewrite (proj1 (AM_A (map up2 lo) (map up2 hi) N _ c H)). rewrite map_length, H1.
    rewrite (rsum_ext _ _ (fun k => up2 (nth k lo 0%Q) * mvT (2 * N) M z ((2 * c + k) mod (2 * N))%nat))
      by (intros; rewrite nth_up; reflexivity).
    rewrite row_of by auto. apply (row_bound lo hi c B z (fun j => z (N + j)%nat)); auto.
  - replace c with (N + (c - N))%nat by lia. assert (Hc' : (c - N < N)%nat) by lia.
    unfold M at 1. rewrite (proj2 (AM_A (map up2 lo) (map up2 hi) N _ _ Hc')). rewrite map_length, H2.
    rewrite (rsum_ext _ _ (fun k => up2 (nth k hi 0%Q) * mvT (2 * N) M z ((2 * (c - N) + k) mod (2 * N))%nat))
      by (intros; rewrite nth_up; reflexivity).
    rewrite row_of by auto. rewrite Rplus_comm at 1.
    apply (row_bound hi lo (c - N) B (fun j => z (N + j)%nat) z); auto.
Qed.
End Rows.

Definition rows_ok (t : Z) : bool :=
  Qle_bool (rowQ (loQ t) (hiQ t) (Z.to_nat t)) (filter_defect t) &&
  Qle_bool (rowQ (hiQ t) (loQ t) (Z.to_nat t)) (filter_defect t).
Lemma rows_defects : forallb rows_ok [1; 2; 3; 4; 5; 6; 7; 8; 9; 10]%Z = true.
Proof. vm_compute. reflexivity. Qed.

Lemma HM_rows t N : (1 <= t <= 10)%Z -> (Z.to_nat t <= N)%nat ->
  near_id (2 * N) (fun i j => HM t (2 * N) j i) (Q2R (filter_defect t)).
Proof.
  intros Ht HN. unfold HM. rewrite lo_up, hi_up.
  assert (HL : length (loQ t) = (2 * Z.to_nat t)%nat) by (apply (@lo_r_length Q exactQ); auto).
  assert (HH : length (hiQ t) = (2 * Z.to_nat t)%nat) by
    (unfold hiQ; rewrite (@hi_r_length Q exactQ); exact HL).
  apply (AM_rows _ _ (Z.to_nat t)); auto; [lia|].
  revert t Ht HN HL HH. refine (Z10_cases _ _). intros t Hin _ _ _.
  pose proof rows_defects as D. rewrite forallb_forall in D. apply (D t Hin).
Qed.

Section G.
Variable g : geom.
Hypothesis G : gwf g.
Lemma rows_h s : (s < gK g)%nat -> near_id (hs g s) (fun i j => HM (gt g) (hs g s) j i) (Q2R (filter_defect (gt g))).
Proof.
  intros Hs. pose proof (hs_step g s G Hs) as (Hh & Hh2). rewrite Hh.
  apply HM_rows; [apply (gt_range g s G Hs)|]. lia.
Qed.
Lemma rows_w s : (s < gK g)%nat -> near_id (ws g s) (fun i j => WM g (ws g s) j i) (epsW g).
Proof.
  intros Hs. unfold WM, epsW. destruct (gdim_cases g G) as [E|E]; rewrite E; cbn [Nat.eqb].
  - intros x B HB c Hc. change (fun i j => idm j i) with (fun i j : nat => if Nat.eqb j i then 1 else 0).
    assert (Q : forall (f : nat -> R) c, (c < ws g s)%nat -> mv (ws g s) (fun i j => if Nat.eqb j i then 1 else 0) f c = f c).
    { intros f d Hd. unfold mv. rewrite (rsum_single _ _ d); auto; [rewrite Nat.eqb_refl; ring|].
      intros k _ Hk. destruct (Nat.eqb_spec k d); [congruence|ring]. }
    assert (Q' : forall (f : nat -> R) c, (c < ws g s)%nat -> mvT (ws g s) (fun i j => if Nat.eqb j i then 1 else 0) f c = f c).
    { intros f d Hd. unfold mvT. rewrite (rsum_single _ _ d); auto; [rewrite Nat.eqb_refl; ring|].
      intros k _ Hk. destruct (Nat.eqb_spec d k); [congruence|ring]. }
    rewrite Q', Q by auto. unfold Rminus. rewrite Rplus_opp_r, Rabs_R0. lra.
  - pose proof (ws_step g s G E Hs) as (Hh & Hh2). rewrite Hh.
    apply HM_rows; [apply (gt_range g s G Hs)|]. lia.
Qed.
Lemma AnSy_near s z : (s < gK g)%nat ->
  nrm (hs g s) (ws g s) (fun i j => Ans g s (Sys g s z) i j - z i j) <= (gain g - 1) * nrm (hs g s) (ws g s) z.
Proof.
  intros Hs.
  exact (SyAn_near (hs g s) (ws g s) _ _ _ _ (rows_h s Hs) (rows_w s Hs) (eps_pos (gt g)) (epsW_pos g) z).
Qed.
End G.
