(** * P_Acc: rounded decomposition and composition against the exact ones. *)
Require Import List Bool Arith ZArith QArith Qreals Lia Reals Lra Psatz.
Require Import ZifyBool.
Require Import Verif.M_Base Verif.M_Params Verif.M_Padding Verif.M_Wavelet Verif.M_Buffer Verif.M_Real.
Require Import Verif.S_Params Verif.S_Padding Verif.S_Buffer Verif.S_Exact Verif.S_Round Verif.S_Stable.
Require Import Verif.P_Base Verif.P_Wavelet Verif.P_Buffer Verif.P_Impl Verif.P_Api Verif.P_Api2.
Require Import Verif.P_Sum Verif.P_Lin Verif.P_PR Verif.P_L2 Verif.P_Rec Verif.P_Exact Verif.P_Rel Verif.P_Round Verif.P_Round2 Verif.P_Round3.
Require Import Verif.P_Stable Verif.P_Stable2 Verif.P_Dual Verif.P_Dual2 Verif.P_Dual3.
Import ListNotations.
Open Scope R_scope.

Lemma hyp_tele (e d f F : nat -> R) c K : 1 <= c ->
  (forall s, 0 <= e s) -> (forall s, 0 <= d s) -> (forall s, 0 <= f s) ->
  (forall s, (s < K)%nat -> sqrt (sq (e (S s)) + d s) <= c * e s + f s) ->
  e 0%nat <= F 0%nat -> (forall s, (s < K)%nat -> c * F s + f s <= F (S s)) ->
  forall s, (s <= K)%nat -> sqrt (sq (e s) + rsum s d) <= F s.
Proof.
  intros Hc He Hd Hf ST H0 HF. induction s as [|s IH]; intros Hs.
  - cbn [rsum]. rewrite Rplus_0_r. unfold sq. rewrite sqrt_square by auto. auto.
  - specialize (IH ltac:(lia)). specialize (ST s ltac:(lia)). specialize (HF s ltac:(lia)).
    cbn [rsum]. set (V := rsum s d) in *.
    assert (HV : 0 <= V) by (apply rsum_nonneg; intros; auto).
    replace (sq (e (S s)) + (V + d s)) with (sq (sqrt (sq (e (S s)) + d s)) + V).
    2:{ unfold sq at 1. rewrite sqrt_sqrt by (pose proof (sq_pos (e (S s))); pose proof (Hd s); lra). ring. }
    eapply Rle_trans; [apply (hyp_mono _ (f s + c * e s)); split; [apply sqrt_pos|lra]|].
    eapply Rle_trans; [apply hyp_shift; auto; apply Rmult_le_pos; auto; lra|].
    pose proof (hyp_scale c (sq (e s)) V Hc (sq_pos (e s)) HV) as HS.
    unfold sq at 2 in HS. rewrite sqrt_square in HS by auto.
    assert (c * sqrt (sq (e s) + V) <= c * F s) by (apply Rmult_le_compat_l; lra). lra.
Qed.

Section Round.
Variables (u eta : R) (A : Arith R).
Hypothesis (HR : rounding u eta A) (Hu : 0 <= u) (Heta : 0 <= eta).
Lemma chf_any (ch : decomposition R) k i j : @chf R A ch k i j = @chf R exactR ch k i j.
Proof. unfold chf. rewrite (rounding_zero _ _ _ HR). reflexivity. Qed.

Section Geom.
Variable g : geom.
Hypothesis G : gwf g.
Notation K := (gK g).
Notation N2 s := (nrm (hs g s) (ws g s)).
Notation apA := (@ap R A g).
Notation apE := (@ap R exactR g).
Notation rcA := (@rc R A g).
Notation rcE := (@rc R exactR g).
Notation a := (stepg u g).
Notation kp := (kap u eta g).
Notation gn := (gain g).

(** closed forms *)
Definition FF (n0 : R) (s : nat) : R := (a ^ s - gn ^ s) * n0 + INR s * a ^ s * kp.
Lemma FF_step n0 s n : 0 <= n0 -> n <= a ^ s * (n0 + INR s * kp) -> gn * FF n0 s + ((a - gn) * n + kp) <= FF n0 (S s).
Proof.
  intros Hn0 Hn. unfold FF. rewrite S_INR. cbn [pow].
  pose proof (stepg_1 u Hu g) as S1. pose proof (kap_0 u eta Hu Heta g) as K0. pose proof (gain_1 g). pose proof (gain_stepg u Hu g) as GS.
  assert (P1 : 1 <= a ^ s) by (apply pow_R1_Rle; auto). pose proof (pos_INR s).
  assert ((a - gn) * n <= (a - gn) * (a ^ s * (n0 + INR s * kp))) by (apply Rmult_le_compat_l; lra).
  assert (Q : kp <= a * a ^ s * kp) by (rewrite <- (Rmult_1_l kp) at 1; apply Rmult_le_compat_r; nra).
  apply Rle_trans with (gn * ((a ^ s - gn ^ s) * n0 + INR s * a ^ s * kp) + ((a - gn) * (a ^ s * (n0 + INR s * kp)) + kp)); [lra|].
  apply Rle_trans with ((a * a ^ s - gn * gn ^ s) * n0 + INR s * (a * a ^ s) * kp + kp); [apply Req_le; ring|lra].
Qed.

Variables (chA : decomposition R) (xA : nat -> nat -> R).
Hypothesis HA1 : holdsA A g chA xA.

Lemma apA_norm s : (s <= K)%nat -> N2 s (apA xA s) <= a ^ s * (N2 0 xA + INR s * kp).
Proof.
  pose proof (stepg_1 u Hu g) as S1. pose proof (kap_0 u eta Hu Heta g) as K0.
  induction s; intros Hs; [cbn [ap pow INR]; lra|]. specialize (IHs ltac:(lia)).
  eapply Rle_trans; [apply (apA_nrm u eta A HR Hu Heta g G); lia|]. cbn [pow]. rewrite S_INR.
  assert (P1 : 1 <= a ^ s) by (apply pow_R1_Rle; auto).
  assert (a * N2 s (apA xA s) <= a * (a ^ s * (N2 0 xA + INR s * kp))) by (apply Rmult_le_compat_l; lra).
  assert (Q : kp <= a * a ^ s * kp) by (rewrite <- (Rmult_1_l kp) at 1; apply Rmult_le_compat_r; nra).
  lra.
Qed.

(** ** energy of what is stored *)
Lemma ener_step s : (s < K)%nat -> sqrt (sq (N2 (S s) (apA xA (S s))) + dl2 A g [] chA s) <= a * N2 s (apA xA s) + kp.
Proof.
  intros Hs. rewrite <- (jd_norm A g G [] chA s) by auto.
  rewrite (nrm_ext _ _ _ (@ANA R A g s (apA xA s))); [apply (ANA_nrm u eta A HR Hu Heta g G); auto|].
  intros i j Hi Hj. pose proof (joinA A g G chA xA s (apA xA (S s)) i j HA1 Hs Hi Hj) as E.
  revert E. unfold joined. rewrite !(df_nil u eta A HR).
  destruct (Nat.ltb j (ws g (S s))), (Nat.ltb i (hs g (S s))); intros E; lra.
Qed.
Lemma moved_split ch0 ch (B : Arith R) (v : nat -> nat -> R) :
  (forall i j, (i < hs g K)%nat -> (j < ws g K)%nat -> df B ch0 ch (K * gspw g) i j = v i j) ->
  moved B g ch0 ch K = sq (N2 K v) + rsum K (dl2 B g ch0 ch).
Proof.
  intros Hv.
  assert (Q : forall it, (it <= K)%nat -> moved B g ch0 ch it = rsum it (fun i => dl2 B g ch0 ch (K - S i)) + moved B g ch0 ch 0).
  { induction it; intros Hit; [simpl; ring|]. cbn [moved rsum] in *. rewrite IHit by lia. ring. }
  rewrite Q by lia. rewrite (rsum_rev K).
  rewrite (rsum_ext K _ (dl2 B g ch0 ch)) by (intros; f_equal; lia).
  rewrite Rplus_comm. f_equal. rewrite nrm_sq. cbn [moved]. apply rsum2_ext. intros i j Hi Hj. rewrite Hv by auto. reflexivity.
Qed.
Lemma ener_all : sqrt (moved A g [] chA K) <= a ^ K * (N2 0 xA + INR K * kp).
Proof.
  pose proof (stepg_1 u Hu g) as S1. pose proof (kap_0 u eta Hu Heta g) as K0.
  rewrite (moved_split [] chA A (apA xA K)).
  2:{ intros. rewrite (df_nil u eta A HR). apply HA1; auto. }
  apply (hyp_tele (fun s => N2 s (apA xA s)) (dl2 A g [] chA) (fun _ => kp) (fun s => a ^ s * (N2 0 xA + INR s * kp)) a K S1);
    intros; try apply nrm_pos; try apply dl2_pos; auto.
  - apply ener_step; auto.
  - cbn [ap pow INR]. lra.
  - cbn [pow]. rewrite S_INR. assert (P1 : 1 <= a ^ s) by (apply pow_R1_Rle; auto).
    assert (Q : kp <= a * a ^ s * kp) by (rewrite <- (Rmult_1_l kp) at 1; apply Rmult_le_compat_r; nra). lra.
Qed.

(** ** distance of the rounded from the exact decomposition *)
Variables (ch0 : decomposition R) (x : nat -> nat -> R).
Hypothesis H0 : holdsA exactR g ch0 x.
Hypothesis Hx : forall i j, xA i j = x i j.
Definition ea (s : nat) : R := N2 s (fun i j => apA xA s i j - apE x s i j).

Lemma acc_step s : (s < K)%nat ->
  sqrt (sq (ea (S s)) + dl2 exactR g ch0 chA s) <= gn * ea s + ((a - gn) * N2 s (apA xA s) + kp).
Proof.
  intros Hs. unfold ea at 1. rewrite <- (jd_norm exactR g G ch0 chA s) by auto.
  rewrite (nrm_ext _ _ _ (fun i j => (@ANA R A g s (apA xA s) i j - Ans g s (apA xA s) i j) +
     Ans g s (fun i j => apA xA s i j - apE x s i j) i j)).
  - eapply Rle_trans; [apply nrm_triang|].
    pose proof (ana_err u eta A HR Hu Heta g G s (apA xA s) Hs). 
    pose proof (Ans_nrm g G s (fun i j => apA xA s i j - apE x s i j) Hs). unfold ea. lra.
  - intros i j Hi Hj. rewrite Ans_minus, <- (ANA_exact g G s (apE x s)) by auto.
    pose proof (joinA A g G chA xA s (apA xA (S s)) i j HA1 Hs Hi Hj) as E.
    pose proof (joinA exactR g G ch0 x s (apE x (S s)) i j H0 Hs Hi Hj) as E'.
    revert E E'. unfold joined, df. rewrite !chf_any.
    destruct (Nat.ltb j (ws g (S s))), (Nat.ltb i (hs g (S s))); intros E E'; lra.
Qed.
Lemma acc_all : sqrt (moved exactR g ch0 chA K) <= FF (N2 0 x) K.
Proof.
  pose proof (stepg_1 u Hu g) as S1. pose proof (kap_0 u eta Hu Heta g) as K0. pose proof (gain_stepg u Hu g) as GS.
  rewrite (moved_split ch0 chA exactR (fun i j => apA xA K i j - apE x K i j)).
  2:{ intros. unfold df. rewrite <- chf_any. destruct HA1 as [_ E1], H0 as [_ E0]. rewrite E1, E0 by auto. reflexivity. }
  apply (hyp_tele ea (dl2 exactR g ch0 chA) (fun s => (a - gn) * N2 s (apA xA s) + kp) (FF (N2 0 x)) gn K (gain_1 g));
    intros; try apply nrm_pos; try apply dl2_pos; auto.
  - apply Rplus_le_le_0_compat; auto. apply Rmult_le_pos; [lra|apply nrm_pos].
  - apply acc_step; auto.
  - unfold ea, FF. cbn [ap pow INR].
    rewrite nrm_zero by (intros; rewrite Hx; ring). lra.
  - apply FF_step; [apply nrm_pos|]. eapply Rle_trans; [apply apA_norm; lia|].
    apply Req_le. do 2 f_equal. apply nrm_ext. auto.
Qed.
End Geom.

(** ** composition *)
Section Compose.
Variable g : geom.
Hypothesis G : gwf g.
Notation K := (gK g).
Notation N2 s := (nrm (hs g s) (ws g s)).
Notation rcA := (@rc R A g).
Notation rcE := (@rc R exactR g).
Notation a := (stepg u g).
Notation kp := (kap u eta g).
Notation gn := (gain g).
Lemma SYN_exact s y i j : (s < K)%nat -> (i < hs g s)%nat -> (j < ws g s)%nat ->
  @SYN R exactR g s y i j = Sys g s y i j.
Proof.
  intros Hs Hi Hj. pose proof (syn_err 0 0 exactR exact_rounding (Rle_refl 0) (Rle_refl 0) g G s y Hs) as H.
  rewrite stepg_exact, kap_exact in H.
  assert (N : N2 s (fun i j => @SYN R exactR g s y i j - Sys g s y i j) = 0).
  { apply Rle_antisym; [|apply nrm_pos]. lra. }
  pose proof (nrm_zero_inv _ _ _ N i j Hi Hj) as E. simpl in E. lra.
Qed.
Variable ch : decomposition R.
Notation en := (moved A g [] ch).
Definition ec (it : nat) : R := N2 (K - it) (fun i j => rcA ch it i j - rcE ch it i j).
Lemma com_step it : (it < K)%nat -> ec (S it) <= gn * ec it + ((a - gn) * N2 (K - S it) (zz A g ch it) + kp).
Proof.
  intros Hit. set (s := (K - S it)%nat). assert (Hs : (s < K)%nat) by (unfold s; lia).
  assert (Es : (K - it = S s)%nat) by (unfold s; lia).
  pose proof (level_le g G s Hs) as [L1 L2].
  set (zA := zz A g ch it). set (zE := zz exactR g ch it).
  assert (EJ : N2 s (fun i j => zA i j - zE i j) = ec it).
  { unfold ec. rewrite Es. rewrite <- (nrm_joined g (hs g (S s)) (ws g (S s)) (hs g s) (ws g s)) by auto.
    apply nrm_ext. intros i j _ _. unfold zA, zE, zz. fold s. cbv zeta. unfold joined. rewrite !chf_any.
    destruct (Nat.ltb j (ws g (S s))), (Nat.ltb i (hs g (S s))); ring. }
  unfold ec at 1. fold s.
  rewrite (nrm_ext _ _ _ (fun i j => (@SYN R A g s zA i j - Sys g s zA i j) + Sys g s (fun i j => zA i j - zE i j) i j)).
  - eapply Rle_trans; [apply nrm_triang|].
    pose proof (syn_err u eta A HR Hu Heta g G s zA Hs).
    pose proof (Sys_nrm g G s (fun i j => zA i j - zE i j) Hs) as Q. rewrite EJ in Q. lra.
  - intros i j Hi Hj. rewrite (rc_zz A g G ch it i j), (rc_zz exactR g G ch it i j) by auto. fold s zA zE.
    rewrite Sys_minus, (SYN_exact s zE) by auto. ring.
Qed.
Lemma com_acc it : (it <= K)%nat -> ec it <= FF g (sqrt (en K)) it.
Proof.
  pose proof (stepg_1 u Hu g) as S1. pose proof (kap_0 u eta Hu Heta g) as K0.
  induction it as [|it IH]; intros Hit.
  - unfold ec, FF. cbn [rc pow INR]. rewrite nrm_zero; [lra|]. intros. rewrite chf_any. ring.
  - specialize (IH ltac:(lia)). eapply Rle_trans; [apply com_step; lia|].
    eapply Rle_trans; [|apply (FF_step g (sqrt (en K)) it (N2 (K - S it) (zz A g ch it))); [apply sqrt_pos|]].
    + apply Rplus_le_compat_r, Rmult_le_compat_l; [pose proof (gain_1 g); lra|auto].
    + destruct (rc_norm u eta A HR Hu Heta g G ch it ltac:(lia)) as [_ H]. eapply Rle_trans; [apply H; lia|].
      apply Rmult_le_compat_l; [apply pow_le; lra|]. apply Rplus_le_compat_r. apply sqrt_le_1_alt. apply (en_mono A g); lia.
Qed.
End Compose.

Section Api.
Variable p : params.
Hypothesis HA : accepted p.
Notation g := (geom_of p).
Notation accuracy := (accuracy u eta p).

Lemma FF_acc n : 0 <= n -> FF g n (gK g) <= accuracy n.
Proof.
  intros Hn. unfold FF, S_Stable.accuracy. pose proof (stepg_1 u Hu g) as S1. pose proof (kap_0 u eta Hu Heta g) as K0.
  rewrite (underflow_kap u eta p HA), <- (stepg_gain u p HA), <- (K_nsteps p HA), (gain_pow p HA).
  pose proof (pos_INR (gK g)).
  assert (INR (gK g) * stepg u g ^ gK g * kap u eta g <= INR (gK g) * stepg u g ^ (2 * gK g) * kap u eta g).
  { apply Rmult_le_compat_r; auto. apply Rmult_le_compat_l; auto. apply Rle_pow; auto. lia. }
  lra.
Qed.
Lemma dec_accuracy m : shaped p m ->
  sqrt (distance2 (@dec_of p R exactR null_denoiser m) (@dec_of p R A null_denoiser m)) <= accuracy (sqrt (padded_energy p m)).
Proof.
  intros (_ & _ & Cm).
  rewrite <- (moved_distance 0 0 exactR exact_rounding g);
    try (apply (layout_iff p HA); apply dec_of_layout; auto; apply null_keepsA).
  rewrite <- (padded_nrm p HA m Cm). cbn [ap]. eapply Rle_trans; [|apply FF_acc; apply nrm_pos].
  apply (acc_all g (geom_wf p HA) (@dec_of p R A null_denoiser m) (@padf p R A m)).
  - apply dec_holdsA.
  - apply dec_holdsA.
  - intros. apply (padf_R u eta A HR).
Qed.
Lemma dec_energy m : shaped p m ->
  sqrt (channel_energy (@dec_of p R A null_denoiser m)) <= step_gain u p ^ nsteps p * sqrt (padded_energy p m) + underflow u eta p / 2.
Proof.
  intros (_ & _ & Cm).
  assert (L : layout g (@dec_of p R A null_denoiser m)) by (apply (layout_iff p HA); apply dec_of_layout; auto; apply null_keepsA).
  rewrite <- (moved_energy u eta A HR g _ L).
  eapply Rle_trans; [apply (ener_all g (geom_wf p HA) _ (@padf p R A m)); apply dec_holdsA|].
  rewrite <- (padded_nrm p HA m Cm). cbn [ap].
  rewrite (nrm_ext _ _ (@padf p R A m) (@padf p R exactR m)) by (intros; apply (padf_R u eta A HR)).
  pose proof (stepg_1 u Hu g) as S1. pose proof (kap_0 u eta Hu Heta g) as K0.
  rewrite (underflow_kap u eta p HA), <- (stepg_gain u p HA), <- (K_nsteps p HA).
  pose proof (pos_INR (gK g)).
  assert (INR (gK g) * stepg u g ^ gK g * kap u eta g <= INR (gK g) * stepg u g ^ (2 * gK g) * kap u eta g).
  { apply Rmult_le_compat_r; auto. apply Rmult_le_compat_l; auto. apply Rle_pow; auto. lia. }
  lra.
Qed.
(** and nothing is lost *)
Lemma dec_energy_lower m : shaped p m ->
  (1 - float_rel u p) * sqrt (padded_energy p m) - 2 * underflow u eta p <=
  step_gain u p ^ nsteps p * sqrt (channel_energy (@dec_of p R A null_denoiser m)).
Proof.
  intros (_ & _ & Cm). set (ch := @dec_of p R A null_denoiser m).
  assert (L : layout g ch) by (apply (layout_iff p HA); apply dec_of_layout; auto; apply null_keepsA).
  rewrite <- (moved_energy u eta A HR g _ L).
  rewrite <- (padded_nrm p HA m Cm). cbn [ap]. set (x := @padf p R A m).
  rewrite (nrm_ext _ _ (@padf p R exactR m) x) by (intros; symmetry; apply (padf_R u eta A HR)).
  pose proof (stepg_1 u Hu g) as S1. pose proof (kap_0 u eta Hu Heta g) as K0. pose proof (pos_INR (gK g)) as I0.
  pose proof (rec_errA u eta A HR Hu Heta g (geom_wf p HA) ch x (gK g) (dec_holdsA A p m) (Nat.le_refl _)) as H.
  destruct (rc_norm u eta A HR Hu Heta g (geom_wf p HA) ch (gK g) (Nat.le_refl _)) as [N _].
  rewrite Nat.sub_diag in H, N. cbn [ap] in H.
  pose proof (nrm_minus (hs g 0) (ws g 0) x (@rc R A g ch (gK g))) as T.
  rewrite (nrm_ext _ _ (fun i j => x i j - @rc R A g ch (gK g) i j) (fun i j => (-1) * (@rc R A g ch (gK g) i j - x i j))) in T by (intros; ring).
  rewrite nrm_scal in T. replace (Rabs (-1)) with 1 in T by (rewrite Rabs_left; lra). rewrite Rmult_1_l in T.
  rewrite (underflow_kap u eta p HA). unfold float_rel. rewrite <- (stepg_gain u p HA), <- (K_nsteps p HA).
  assert (INR (gK g) * stepg u g ^ gK g * kap u eta g <= INR (gK g) * stepg u g ^ (2 * gK g) * kap u eta g).
  { apply Rmult_le_compat_r; auto. apply Rmult_le_compat_l; auto. apply Rle_pow; auto. lia. }
  assert (0 <= INR (gK g) * stepg u g ^ (2 * gK g) * kap u eta g).
  { apply Rmult_le_pos; auto. apply Rmult_le_pos; auto. apply pow_le. lra. }
  set (n := nrm (hs g 0) (ws g 0) x) in *. set (r := nrm (hs g 0) (ws g 0) (@rc R A g ch (gK g))) in *. 
  lra.
Qed.
Lemma com_accuracy ch : has_layout p ch ->
  error p (@com_of p R A 0 ch) (@com_of p R exactR 0 ch) <= accuracy (sqrt (channel_energy ch)).
Proof.
  intros HL. assert (L : layout g ch) by (apply (layout_iff p HA); auto).
  rewrite <- (moved_energy u eta A HR g _ L).
  eapply Rle_trans; [|apply FF_acc; apply sqrt_pos].
  eapply Rle_trans; [|apply (com_acc g (geom_wf p HA) ch (gK g) (Nat.le_refl _))].
  unfold ec. rewrite Nat.sub_diag.
  unfold com_of, scalem. cbn [Nat.ltb Nat.leb]. rewrite Nat.sub_0_r.
  rewrite !(cropfA p HA), crows_0, ccols_0.
  change (error p ?o ?m) with (nrm (drows p) (dcols p) (fun i j => at_ o i j - at_ m i j)).
  rewrite (nrm_ext _ _ _ (fun i j => (fun i j => @rc R A g ch (gK g) i j - @rc R exactR g ch (gK g) i j)
     (offk_r p 0 + i)%nat (offk_c p 0 + j)%nat)).
  - apply (nrm_sub_off _ _ _ _ _ _ (fun i j => @rc R A g ch (gK g) i j - @rc R exactR g ch (gK g) i j)).
    + rewrite (hs_level p HA), <- crows_0. apply off_fit_r; auto.
    + rewrite (ws_level p HA), <- ccols_0. apply off_fit_c; auto.
  - intros i j Hi Hj. rewrite !at_mk by auto. reflexivity.
Qed.
End Api.
End Round.
