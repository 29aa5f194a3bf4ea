(** * P_Rec: multi-step decomposition and reconstruction over exact reals. *)
Require Import List Bool Arith ZArith QArith Qreals Lia Reals Lra.
Require Import ZifyBool.
Require Import Verif.M_Base Verif.M_Wavelet Verif.M_Buffer Verif.M_Real Verif.P_Base Verif.P_Wavelet Verif.P_Buffer.
Require Import Verif.S_Exact Verif.P_Sum Verif.P_Lin Verif.P_PR Verif.P_L2.
Import ListNotations.
Open Scope R_scope.

(** level matrices *)
Definition HM (t : Z) (n : nat) : nat -> nat -> R := AM (@lo_r R exactR t) (@hi_r R exactR t) n.
Definition WM (g : geom) (n : nat) : nat -> nat -> R := if Nat.eqb (gdim g) 1 then idm else HM (gt g) n.

Notation epsQ := filter_defect.

Definition defect_ok (t : Z) : bool :=
  Qle_bool (defectQ (loQ t) (hiQ t) (Z.to_nat t) 0) (epsQ t) &&
  Qle_bool (defectQ (loQ t) (hiQ t) (Z.to_nat t) 1) (epsQ t).
Lemma defects : forallb defect_ok [1; 2; 3; 4; 5; 6; 7; 8; 9; 10]%Z = true.
Proof. vm_compute. reflexivity. Qed.

Lemma Z10_cases (P : Z -> Prop) : (forall t, In t [1; 2; 3; 4; 5; 6; 7; 8; 9; 10]%Z -> P t) ->
  forall t, (1 <= t <= 10)%Z -> P t.
Proof.
  intros H t Ht. apply H. simpl.
  assert (t = 1 \/ t = 2 \/ t = 3 \/ t = 4 \/ t = 5 \/ t = 6 \/ t = 7 \/ t = 8 \/ t = 9 \/ t = 10)%Z by lia.
  intuition.
Qed.

Lemma HM_near t N : (1 <= t <= 10)%Z -> (Z.to_nat t <= N)%nat ->
  near_id (2 * N) (HM t (2 * N)) (Q2R (epsQ t)).
Proof.
  intros Ht HN. unfold HM. rewrite lo_up, hi_up.
  assert (HL : length (loQ t) = (2 * Z.to_nat t)%nat) by (apply (@lo_r_length Q exactQ); auto).
  assert (HH : length (hiQ t) = (2 * Z.to_nat t)%nat) by
    (unfold hiQ; rewrite (@hi_r_length Q exactQ); exact HL).
  apply (AM_near_id _ _ (Z.to_nat t)); auto; [lia|].
  revert t Ht HN HL HH. refine (Z10_cases _ _). intros t Hin _ _ _.
  pose proof defects as D. rewrite forallb_forall in D. apply (D t Hin).
Qed.
Lemma eps_pos t : (0 <= Q2R (epsQ t)).
Proof.
  replace 0 with (Q2R 0) by apply RMicromega.Q2R_0. apply Qle_Rle. unfold filter_defect.
  destruct t as [|p|p]; try apply Qle_refl.
  repeat (destruct p; try apply Qle_refl; try (unfold Qle; simpl; lia)).
Qed.

Section G.
Variable g : geom.
Hypothesis G : gwf g.
Let t := gt g.
Let K := gK g.

Definition epsW : R := if Nat.eqb (gdim g) 1 then 0 else Q2R (epsQ (gt g)).
Definition gain : R := (1 + Q2R (epsQ (gt g))) * (1 + epsW).

Lemma epsW_pos : 0 <= epsW.
Proof. unfold epsW. destruct (Nat.eqb (gdim g) 1); [lra|apply eps_pos]. Qed.
Lemma gain_1 : 1 <= gain.
Proof.
  unfold gain. pose proof epsW_pos. pose proof (eps_pos (gt g)). nra.
Qed.

Lemma even2 n : Nat.even (2 * n) = true.
Proof. rewrite Nat.even_mul. reflexivity. Qed.

Lemma lens s : (s < K)%nat -> (0 < length (@lo_r R exactR t))%nat /\ (0 < length (@hi_r R exactR t))%nat.
Proof.
  intros Hs. pose proof (gt_range g s G Hs) as Ht. rewrite hi_r_length. unfold t. rewrite lo_r_length by auto. lia.
Qed.

Lemma ws_pos s : (s < K)%nat -> (0 < ws g s)%nat.
Proof.
  intros Hs. destruct (gdim_cases g G) as [E|E].
  - rewrite ws_1; auto.
  - pose proof (ws_step g s G E Hs) as [_ ?]. pose proof (gt_range g s G Hs). lia.
Qed.

Lemma near_h s : (s < K)%nat -> near_id (hs g s) (HM t (hs g s)) (Q2R (epsQ t)).
Proof.
  intros Hs. pose proof (hs_step g s G Hs) as (Hh & Hh2). rewrite Hh.
  apply HM_near; [apply (gt_range g s G Hs)|]. unfold t. lia.
Qed.
Lemma near_w s : (s < K)%nat -> near_id (ws g s) (WM g (ws g s)) epsW.
Proof.
  intros Hs. unfold WM, epsW. destruct (gdim_cases g G) as [E|E]; rewrite E; cbn [Nat.eqb].
  - apply idm_near.
  - pose proof (ws_step g s G E Hs) as (Hh & Hh2). rewrite Hh.
    apply HM_near; [apply (gt_range g s G Hs)|]. lia.
Qed.

Definition Ans s := An (hs g s) (ws g s) (HM t (hs g s)) (WM g (ws g s)).
Definition Sys s := Sy (hs g s) (ws g s) (HM t (hs g s)) (WM g (ws g s)).

Lemma An_1 h H x i : An h 1 H idm x i 0 = mv h H (fun i' => x i' 0%nat) i.
Proof. unfold An. apply mv_ext. intros. apply (proj1 (idm_mv 1 _ 0%nat (Nat.lt_0_1))). Qed.
Lemma Sy_1 h H x i : Sy h 1 H idm x i 0 = mvT h H (fun i' => x i' 0%nat) i.
Proof. unfold Sy. apply mvT_ext. intros. apply (proj2 (idm_mv 1 _ 0%nat (Nat.lt_0_1))). Qed.

Lemma sep_An h w x i j : (0 < Z.to_nat t)%nat -> (1 <= t <= 10)%Z -> Nat.even h = true -> Nat.even w = true -> (i < h)%nat -> (j < w)%nat ->
  sep (dm t w) (dm t h) x i j = An h w (HM t h) (HM t w) x i j.
Proof.
  intros Ht0 Ht Eh Ew Hi Hj. unfold sep, dm.
  assert (L1 : (0 < length (@lo_r R exactR t))%nat) by (rewrite lo_r_length by auto; lia).
  assert (L2 : (0 < length (@hi_r R exactR t))%nat) by (rewrite hi_r_length; auto).
  rewrite dmat_mv by auto. apply mv_ext. intros i' Hi'. apply dmat_mv; auto.
Qed.
Lemma sep_Sy h w x i j : (0 < Z.to_nat t)%nat -> (1 <= t <= 10)%Z -> Nat.even h = true -> Nat.even w = true -> (i < h)%nat -> (j < w)%nat ->
  sep (dmT t w) (dmT t h) x i j = Sy h w (HM t h) (HM t w) x i j.
Proof.
  intros Ht0 Ht Eh Ew Hi Hj. unfold sep, dmT, dm.
  assert (L1 : (0 < length (@lo_r R exactR t))%nat) by (rewrite lo_r_length by auto; lia).
  assert (L2 : (0 < length (@hi_r R exactR t))%nat) by (rewrite hi_r_length; auto).
  rewrite dmat_mvT by auto. apply mvT_ext. intros i' Hi'. apply dmat_mvT; auto.
Qed.

Lemma afilt_AM s x i : (s < K)%nat -> (i < hs g (S s))%nat ->
  afilt (lo_r t) (hs g s) x i = mv (hs g s) (HM t (hs g s)) x i /\
  afilt (hi_r t) (hs g s) x i = mv (hs g s) (HM t (hs g s)) x (hs g (S s) + i).
Proof.
  intros Hs Hi. pose proof (hs_step g s G Hs) as (Hh & Hh2).
  rewrite !afilt_ent by lia. rewrite Hh. unfold HM.
  destruct (AM_A (lo_r t) (hi_r t) (hs g (S s)) x i Hi) as [-> ->].
  rewrite !ent_sum by lia. auto.
Qed.

(** one analysis level *)
Lemma ana_glue x s i j : (s < K)%nat -> (i < hs g (S s))%nat -> (j < ws g (S s))%nat ->
  ap g x (S s) i j = Ans s (ap g x s) i j.
Proof.
  intros Hs Hi Hj. pose proof (hs_step g s G Hs) as (Hh & Hh2). pose proof (gt_range g s G Hs) as Ht.
  cbn [ap]. unfold ana_a, Ans, WM. set (y := ap g x s).
  destruct (gdim_cases g G) as [E|E]; rewrite E; cbn [Nat.eqb].
  - rewrite (ws_1 g s E). rewrite (ws_1 g (S s) E) in Hj. replace j with 0%nat by lia. rewrite An_1.
    apply (afilt_AM s (fun i' => y i' 0%nat)); auto.
  - pose proof (ws_step g s G E Hs) as (Hw & Hw2).
    apply sep_An; auto; try (rewrite Hh || rewrite Hw; apply even2); unfold t; lia.
Qed.

Definition offr (b : nat) : nat -> nat -> nat := fun h i => (if Nat.eqb b 1 then i else h + i)%nat.
Definition offc (b : nat) : nat -> nat -> nat := fun w j => (if Nat.eqb b 0 then j else w + j)%nat.

Lemma det_glue x s b i j d : (s < K)%nat -> nth_error (detf g x s) b = Some d ->
  (i < hs g (S s))%nat -> (j < ws g (S s))%nat ->
  d i j = Ans s (ap g x s) (offr b (hs g (S s)) i) (offc b (ws g (S s)) j).
Proof.
  intros Hs Hd Hi Hj. pose proof (hs_step g s G Hs) as (Hh & Hh2). pose proof (gt_range g s G Hs) as Ht.
  unfold detf, ana_d in Hd. unfold Ans, WM. set (y := ap g x s) in *.
  assert (Eh2 : (hs g s / 2 = hs g (S s))%nat) by (rewrite Hh, Nat.mul_comm, Nat.div_mul; lia).
  destruct (gdim_cases g G) as [E|E]; rewrite E in *; cbn [Nat.eqb] in *.
  - rewrite (ws_1 g s E) in *. rewrite (ws_1 g (S s) E) in *. replace j with 0%nat by lia.
    destruct b as [|b]; [|destruct b; discriminate]. inversion Hd; subst d.
    unfold offr, offc; cbn [Nat.eqb]. rewrite An_1.
    apply (afilt_AM s (fun i' => y i' 0%nat)); auto.
  - pose proof (ws_step g s G E Hs) as (Hw & Hw2).
    assert (Ew2 : (ws g s / 2 = ws g (S s))%nat) by (rewrite Hw, Nat.mul_comm, Nat.div_mul; lia).
    rewrite Eh2, Ew2 in Hd.
    destruct b as [|[|[|b]]]; try (inversion Hd; subst d; unfold offr, offc; cbn [Nat.eqb];
      apply sep_An; auto; try (rewrite Hh || rewrite Hw; apply even2); unfold t; lia).
    destruct b; discriminate.
Qed.

(** one synthesis level *)
Lemma syn_glue s low ds i j : (s < K)%nat -> (i < hs g s)%nat -> (j < ws g s)%nat ->
  synth (gdim g) t (hs g (S s)) (ws g (S s)) low ds i j =
  Sys s (joined (hs g (S s)) (ws g (S s)) low (ds 0%nat) (ds 1%nat) (ds 2%nat)) i j.
Proof.
  intros Hs Hi Hj. pose proof (hs_step g s G Hs) as (Hh & Hh2). pose proof (gt_range g s G Hs) as Ht.
  unfold synth, Sys, WM.
  destruct (gdim_cases g G) as [E|E]; rewrite E; cbn [Nat.eqb].
  - rewrite (ws_1 g s E) in *. rewrite (ws_1 g (S s) E). replace j with 0%nat by lia. rewrite Sy_1.
    rewrite (sfilt_mvT _ _ (Z.to_nat t)).
    + unfold HM. rewrite <- Hh. apply mvT_ext. intros i' Hi'. unfold joined.
      destruct (Nat.ltb_spec i' (hs g (S s))); reflexivity.
    + apply lo_r_length; auto.
    + rewrite hi_r_length. apply lo_r_length; auto.
    + unfold t; lia.
    + lia.
  - pose proof (ws_step g s G E Hs) as (Hw & Hw2).
    rewrite !(Nat.mul_comm _ 2), <- Hh, <- Hw.
    apply sep_Sy; auto; try (rewrite Hh || rewrite Hw; apply even2); unfold t; lia.
Qed.

(** joining the four parts of an analysed level gives it back *)
Lemma joined_whole s (y low d0 d1 d2 : nat -> nat -> R) :
  (s < K)%nat ->
  (forall i j, (i < hs g (S s))%nat -> (j < ws g (S s))%nat -> low i j = y i j) ->
  (forall i j, (i < hs g (S s))%nat -> (j < ws g (S s))%nat -> d0 i j = y (hs g (S s) + i)%nat j) ->
  (gdim g = 2%nat -> forall i j, (i < hs g (S s))%nat -> (j < ws g (S s))%nat -> d1 i j = y i (ws g (S s) + j)%nat) ->
  (gdim g = 2%nat -> forall i j, (i < hs g (S s))%nat -> (j < ws g (S s))%nat -> d2 i j = y (hs g (S s) + i)%nat (ws g (S s) + j)%nat) ->
  forall i j, (i < hs g s)%nat -> (j < ws g s)%nat ->
  joined (hs g (S s)) (ws g (S s)) low d0 d1 d2 i j = y i j.
Proof.
  intros Hs H0 H1 H2 H3 i j Hi Hj. pose proof (hs_step g s G Hs) as (Hh & Hh2).
  unfold joined.
  destruct (gdim_cases g G) as [E|E].
  - rewrite (ws_1 g s E) in *. rewrite (ws_1 g (S s) E) in *.
    destruct (Nat.ltb_spec j 1); [|lia].
    destruct (Nat.ltb_spec i (hs g (S s))); [apply H0; auto|].
    rewrite H1 by lia. f_equal; lia.
  - pose proof (ws_step g s G E Hs) as (Hw & Hw2).
    destruct (Nat.ltb_spec j (ws g (S s))), (Nat.ltb_spec i (hs g (S s))).
    + apply H0; auto.
    + rewrite H1 by lia. f_equal; lia.
    + rewrite H2 by (auto; lia). f_equal; lia.
    + rewrite H3 by (auto; lia). f_equal; lia.
Qed.

(** ch holds (at least) the details of x and its approximation *)
Definition holds_dec (ch : decomposition R) (x : nat -> nat -> R) : Prop :=
  (forall s b d, (s < K)%nat -> nth_error (detf g x s) b = Some d ->
     forall i j, (i < hs g (S s))%nat -> (j < ws g (S s))%nat -> chf ch (s * gspw g + b) i j = d i j) /\
  (forall i j, (i < hs g K)%nat -> (j < ws g K)%nat -> chf ch (K * gspw g) i j = ap g x K i j).

Lemma null_apply h w (d : nat -> nat -> R) s : (gdim g = 1 -> w = 1)%nat -> den_apply (gdim g) null_denoiser (mk h w d) s = mk h w d.
Proof.
  intros Hw. unfold den_apply. destruct (Nat.eqb_spec (gdim g) 1) as [E|E]; [|reflexivity].
  rewrite (Hw E). unfold null_denoiser; cbn [den1]. rewrite <- (map_col0 h d). apply mcolvec_mk.
Qed.

Lemma dec_holds x : holds_dec (dec_pure g null_denoiser x) x.
Proof.
  split.
  - intros s b d Hs Hd i j Hi Hj.
    assert (Hb : (b < gspw g)%nat).
    { rewrite <- (detf_length g x s). apply nth_error_Some. congruence. }
    pose proof (dec_pure_nth_detail g null_denoiser x s b Hs Hb) as E. rewrite Hd in E. cbn [option_map] in E.
    rewrite null_apply in E by apply ws_1.
    unfold chf. apply (nth_error_nth _ _ mempty) in E. rewrite E. apply mel_mk; auto.
  - intros i j Hi Hj. pose proof (dec_pure_nth_approx g null_denoiser x) as E.
    unfold chf. apply (nth_error_nth _ _ mempty) in E. unfold K. rewrite E. unfold apm. apply mel_mk; auto.
Qed.

Lemma detf_some x s b : (b < gspw g)%nat -> exists d, nth_error (detf g x s) b = Some d.
Proof.
  intros Hb. rewrite <- (detf_length g x s) in Hb. destruct (nth_error (detf g x s) b) eqn:E; eauto.
  apply nth_error_None in E. lia.
Qed.

(** the details stored for level s *)
Lemma holds_det ch x s b i j : holds_dec ch x -> (s < K)%nat -> (b < gspw g)%nat ->
  (i < hs g (S s))%nat -> (j < ws g (S s))%nat ->
  chf ch (s * gspw g + b) i j = Ans s (ap g x s) (offr b (hs g (S s)) i) (offc b (ws g (S s)) j).
Proof.
  intros [H _] Hs Hb Hi Hj. destruct (detf_some x s b Hb) as [d Hd].
  rewrite (H s b d) by auto. apply det_glue; auto.
Qed.

Lemma spw_2 : gdim g = 2%nat -> gspw g = 3%nat. Proof. intros E; unfold gspw; rewrite E; reflexivity. Qed.
Lemma spw_pos : (0 < gspw g)%nat. Proof. unfold gspw; destruct (Nat.eqb (gdim g) 1); lia. Qed.

(** reconstructing level s from an approximation low and the stored details *)
Lemma rec_level ch x s low i j : holds_dec ch x -> (s < K)%nat -> (i < hs g s)%nat -> (j < ws g s)%nat ->
  synth (gdim g) t (hs g (S s)) (ws g (S s)) low (fun b => chf ch (s * gspw g + b)) i j =
  Sys s (joined (hs g (S s)) (ws g (S s)) (fun i j => low i j - ap g x (S s) i j)
          (fun _ _ => 0) (fun _ _ => 0) (fun _ _ => 0)) i j
  + Sys s (Ans s (ap g x s)) i j.
Proof.
  intros HD Hs Hi Hj. rewrite syn_glue by auto.
  rewrite <- (Rmult_1_l (Sys s (joined _ _ (fun i j => _ - _) _ _ _) i j)), <- (Rmult_1_l (Sys s (Ans s (ap g x s)) i j)).
  unfold Sys. rewrite <- Sy_lin. apply Sy_ext. clear i j Hi Hj. intros i j Hi Hj.
  set (y := Ans s (ap g x s)).
  rewrite <- (joined_whole s y (fun i j => ap g x (S s) i j)
                (fun i j => y (hs g (S s) + i)%nat j) (fun i j => y i (ws g (S s) + j)%nat)
                (fun i j => y (hs g (S s) + i)%nat (ws g (S s) + j)%nat)) by (auto; intros; apply ana_glue; auto).
  unfold joined.
  pose proof (hs_step g s G Hs) as (Hh & Hh2).
  assert (Hd0 : forall i j, (i < hs g (S s))%nat -> (j < ws g (S s))%nat -> chf ch (s * gspw g + 0) i j = y (hs g (S s) + i)%nat j).
  { intros. rewrite (holds_det ch x) by (auto; apply spw_pos). reflexivity. }
  destruct (gdim_cases g G) as [E|E].
  - rewrite (ws_1 g s E) in *. rewrite (ws_1 g (S s) E) in *.
    destruct (Nat.ltb_spec j 1); [|lia].
    destruct (Nat.ltb_spec i (hs g (S s))); [ring|]. rewrite Hd0 by lia. ring.
  - pose proof (ws_step g s G E Hs) as (Hw & Hw2).
    assert (Hd1 : forall b i j, (b < 3)%nat -> (i < hs g (S s))%nat -> (j < ws g (S s))%nat ->
        chf ch (s * gspw g + b) i j = y (offr b (hs g (S s)) i) (offc b (ws g (S s)) j)).
    { intros. apply (holds_det ch x); auto. rewrite spw_2; auto. }
    destruct (Nat.ltb_spec j (ws g (S s))), (Nat.ltb_spec i (hs g (S s))).
    + ring.
    + rewrite Hd0 by lia. ring.
    + rewrite Hd1 by lia. unfold offr, offc; cbn [Nat.eqb]. ring.
    + rewrite Hd1 by lia. unfold offr, offc; cbn [Nat.eqb]. ring.
Qed.

(** norm of a quadrant *)
Lemma nrm_joined h' w' h w z : (h' <= h)%nat -> (w' <= w)%nat ->
  nrm h w (joined h' w' z (fun _ _ => 0) (fun _ _ => 0) (fun _ _ => 0)) = nrm h' w' z.
Proof.
  intros Hh Hw. unfold nrm. f_equal. unfold rsum2.
  replace h with (h' + (h - h'))%nat by lia. rewrite rsum_split.
  rewrite (rsum_zero (h - h')).
  - rewrite Rplus_0_r. apply rsum_ext. intros i Hi.
    replace w with (w' + (w - w'))%nat by lia. rewrite rsum_split.
    rewrite (rsum_zero (w - w')).
    + rewrite Rplus_0_r. apply rsum_ext. intros j Hj. unfold joined.
      destruct (Nat.ltb_spec i h'); [|lia]. destruct (Nat.ltb_spec j w'); [|lia]. reflexivity.
    + intros j Hj. unfold joined. destruct (Nat.ltb_spec i h'); [|lia]. destruct (Nat.ltb_spec (w' + j) w'); [lia|].
      unfold sq; ring.
  - intros i Hi. apply rsum_zero. intros j Hj. unfold joined. destruct (Nat.ltb_spec (h' + i) h'); [lia|].
    destruct (Nat.ltb j w'); unfold sq; ring.
Qed.
Lemma nrm_sub h' w' h w z : (h' <= h)%nat -> (w' <= w)%nat -> nrm h' w' z <= nrm h w z.
Proof.
  intros Hh Hw. unfold nrm. apply sqrt_le_1_alt. unfold rsum2.
  replace h with (h' + (h - h'))%nat by lia. rewrite rsum_split.
  assert (0 <= rsum (h - h') (fun i => rsum w (fun j => sq (z (h' + i)%nat j)))) by
    (apply rsum_nonneg; intros; apply rsum_nonneg; intros; apply sq_pos).
  assert (rsum h' (fun i => rsum w' (fun j => sq (z i j))) <= rsum h' (fun i => rsum w (fun j => sq (z i j)))).
  { apply rsum_le. intros i Hi. replace w with (w' + (w - w'))%nat by lia. rewrite rsum_split.
    assert (0 <= rsum (w - w') (fun j => sq (z i (w' + j)%nat))) by (apply rsum_nonneg; intros; apply sq_pos). lra. }
  lra.
Qed.
Lemma level_le s : (s < K)%nat -> (hs g (S s) <= hs g s)%nat /\ (ws g (S s) <= ws g s)%nat.
Proof.
  intros Hs. pose proof (hs_step g s G Hs) as (Hh & Hh2). split; [lia|].
  destruct (gdim_cases g G) as [E|E]; [rewrite !ws_1; auto|].
  pose proof (ws_step g s G E Hs) as (Hw & Hw2). lia.
Qed.

Lemma approx_nrm x s : (s < K)%nat ->
  nrm (hs g (S s)) (ws g (S s)) (ap g x (S s)) <= gain * nrm (hs g s) (ws g s) (ap g x s).
Proof.
  intros Hs. pose proof (level_le s Hs) as [H1 H2].
  rewrite (nrm_ext _ _ (ap g x (S s)) (Ans s (ap g x s))) by (intros; apply ana_glue; auto).
  eapply Rle_trans; [apply (nrm_sub _ _ (hs g s) (ws g s)); auto|].
  apply An_nrm; [apply near_h; auto|apply near_w; auto|apply eps_pos|apply epsW_pos].
Qed.

Lemma rec_err ch x it : holds_dec ch x -> (it <= K)%nat ->
  nrm (hs g (K - it)) (ws g (K - it)) (fun i j => rc g ch it i j - ap g x (K - it) i j)
  <= (gain ^ (2 * it) - 1) * nrm (hs g (K - it)) (ws g (K - it)) (ap g x (K - it)).
Proof.
  intros HD. induction it as [|it IH]; intros Hit.
  - rewrite nrm_zero; [simpl; lra|]. intros i j Hi Hj. rewrite Nat.sub_0_r in *. cbn [rc].
    destruct HD as [_ HD]. fold K. rewrite HD by auto. ring.
  - specialize (IH ltac:(lia)). set (s := (K - S it)%nat) in *.
    replace (K - it)%nat with (S s) in IH by (unfold s; lia).
    assert (Hs : (s < K)%nat) by (unfold s; lia).
    cbn [rc]. fold K. fold s. fold t.
    rewrite (nrm_ext _ _ _ (fun i j =>
       Sys s (joined (hs g (S s)) (ws g (S s)) (fun i j => rc g ch it i j - ap g x (S s) i j)
          (fun _ _ => 0) (fun _ _ => 0) (fun _ _ => 0)) i j
       + (Sys s (Ans s (ap g x s)) i j - ap g x s i j))).
    2:{ intros i j Hi Hj. rewrite (rec_level ch x) by auto. ring. }
    eapply Rle_trans; [apply nrm_triang|].
    pose proof (level_le s Hs) as [L1 L2].
    set (z := joined (hs g (S s)) (ws g (S s)) (fun i j => rc g ch it i j - ap g x (S s) i j)
          (fun _ _ => 0) (fun _ _ => 0) (fun _ _ => 0)).
    assert (B1 : nrm (hs g s) (ws g s) (Sys s z) <=
       gain * nrm (hs g (S s)) (ws g (S s)) (fun i j => rc g ch it i j - ap g x (S s) i j)).
    { rewrite <- (nrm_joined (hs g (S s)) (ws g (S s)) (hs g s) (ws g s) (fun i j => rc g ch it i j - ap g x (S s) i j)) by auto.
      exact (Sy_nrm (hs g s) (ws g s) _ _ _ _ (near_h s Hs) (near_w s Hs) (eps_pos t) epsW_pos z). }
    assert (B2 : nrm (hs g s) (ws g s) (fun i j => Sys s (Ans s (ap g x s)) i j - ap g x s i j) <=
       (gain - 1) * nrm (hs g s) (ws g s) (ap g x s)).
    { exact (SyAn_near (hs g s) (ws g s) _ _ _ _ (near_h s Hs) (near_w s Hs) (eps_pos t) epsW_pos (ap g x s)). }
    pose proof (approx_nrm x s Hs) as B3. pose proof gain_1 as G1.
    pose proof (nrm_pos (hs g s) (ws g s) (ap g x s)) as Hx.
    set (E := nrm (hs g (S s)) (ws g (S s)) (fun i j => rc g ch it i j - ap g x (S s) i j)) in *.
    set (X := nrm (hs g s) (ws g s) (ap g x s)) in *.
    set (X1 := nrm (hs g (S s)) (ws g (S s)) (ap g x (S s))) in *.
    assert (P1 : 1 <= gain ^ (2 * it)) by (apply pow_R1_Rle; auto).
    replace (2 * S it)%nat with (S (S (2 * it))) by lia. cbn [pow].
    assert (E <= (gain ^ (2 * it) - 1) * (gain * X)).
    { eapply Rle_trans; [exact IH|]. apply Rmult_le_compat_l; lra. }
    assert (gain * E <= gain * ((gain ^ (2 * it) - 1) * (gain * X))) by (apply Rmult_le_compat_l; lra).
    assert (Hsq : (gain - 1) * X <= (gain * gain - 1) * X).
    { apply Rmult_le_compat_r; auto. nra. }
    assert (gain * E + (gain - 1) * X <= (gain * (gain * gain ^ (2 * it)) - 1) * X); [|lra].
    eapply Rle_trans; [apply Rplus_le_compat; [exact H0|exact Hsq]|].
    apply Req_le. ring.
Qed.

(** exact reconstruction of level K - it for DB1 *)
Lemma gain_db1 : gt g = 1%Z -> gain = 1.
Proof.
  intros E. unfold gain, epsW. rewrite E. cbn [filter_defect]. rewrite RMicromega.Q2R_0.
  destruct (Nat.eqb (gdim g) 1); ring.
Qed.
Lemma rec_exact ch x it : gt g = 1%Z -> holds_dec ch x -> (it <= K)%nat ->
  forall i j, (i < hs g (K - it))%nat -> (j < ws g (K - it))%nat -> rc g ch it i j = ap g x (K - it) i j.
Proof.
  intros Et HD Hit i j Hi Hj. pose proof (rec_err ch x it HD Hit) as H.
  rewrite gain_db1, pow1 in H by auto.
  assert (N : nrm (hs g (K - it)) (ws g (K - it)) (fun i j => rc g ch it i j - ap g x (K - it) i j) = 0).
  { apply Rle_antisym; [|apply nrm_pos]. lra. }
  pose proof (nrm_zero_inv _ _ _ N i j Hi Hj). simpl in H0. lra.
Qed.

End G.
