(** * P_Round3: API-level facts about rounded arithmetic. *)
Require Import List Bool Arith ZArith QArith Qreals Lia Reals Lra.
Require Import ZifyBool.
Require Import Verif.M_Base Verif.M_Params Verif.M_Padding Verif.M_Wavelet Verif.M_Buffer Verif.M_Real.
Require Import Verif.S_Params Verif.S_Padding Verif.S_Buffer Verif.S_Exact Verif.S_Round.
Require Import Verif.P_Base Verif.P_Wavelet Verif.P_Buffer Verif.P_Impl Verif.P_Api Verif.P_Api2.
Require Import Verif.P_Sum Verif.P_Lin Verif.P_PR Verif.P_L2 Verif.P_Rec Verif.P_Exact Verif.P_Rel Verif.P_Round Verif.P_Round2.
Import ListNotations.
Open Scope R_scope.

(** ** any arithmetic: the run, and what the buffer holds *)
Section Any.
Context {T : Type} {A : Arith T}.
Variable p : params.
Hypothesis HA : accepted p.
Let g := geom_of p.
Let Gw : gwf g := geom_wf p HA.

Lemma null_keepsA : keeps_shape (@null_denoiser T).
Proof. split; [reflexivity|]. intros m s W. repeat split; auto. Qed.

Lemma dec_okA (b : buffer T) data : reachable p b -> (1 <= signum p)%Z -> Z.of_nat (length data) = signum p ->
  Forall (shaped p) data ->
  decompose b data null_denoiser = Ok (true, Buffer p (map (dec_of p null_denoiser) data)).
Proof. intros. apply (safe_ok p); auto. apply null_keepsA. Qed.

Lemma com_okA (data : list (mat T)) k : (1 <= signum p)%Z -> Z.of_nat (length data) = signum p ->
  (k <= nsteps p)%nat ->
  compose (Buffer p (map (dec_of p null_denoiser) data)) (Z.of_nat k) =
  Ok (true, map (fun m => com_of p k (dec_of p null_denoiser m)) data).
Proof.
  intros Hsig HL Hk. rewrite (compose_ok p HA); cbn [bpar bdec]; auto.
  - rewrite map_map, Nat2Z.id. reflexivity.
  - rewrite map_length; auto.
  - intros ch Hin. apply in_map_iff in Hin as (m & <- & _). apply dec_of_layout; auto. apply null_keepsA.
  - unfold nsteps in Hk. pose proof (acc_steps p HA). lia.
Qed.

Lemma cropfA k (x : nat -> nat -> T) :
  cropf p k x = mk (crows p k) (ccols p k) (fun i j => x (offk_r p k + i)%nat (offk_c p k + j)%nat).
Proof.
  unfold cropf, offk_r, offk_c, crows, ccols. rewrite <- (hs_level p HA), <- (ws_level p HA), dim_1d. reflexivity.
Qed.
Lemma null_applyA h w (d : nat -> nat -> T) s : (gdim g = 1 -> w = 1)%nat -> den_apply (gdim g) null_denoiser (mk h w d) s = mk h w d.
Proof.
  intros Hw. unfold den_apply. destruct (Nat.eqb_spec (gdim g) 1) as [E|E]; [|reflexivity].
  rewrite (Hw E). unfold null_denoiser; cbn [den1]. rewrite <- (map_col0 h d). apply mcolvec_mk.
Qed.

Lemma dec_details (m : mat T) s b d : (s < gK g)%nat -> nth_error (detf g (padf p m) s) b = Some d ->
  nth_error (dec_of p null_denoiser m) (s * gspw g + b) = Some (mk (hs g (S s)) (ws g (S s)) d).
Proof.
  intros Hs Hd.
  assert (Hb : (b < gspw g)%nat).
  { rewrite <- (detf_length g (padf p m) s). apply nth_error_Some. congruence. }
  pose proof (dec_pure_nth_detail g null_denoiser (padf p m) s b Hs Hb) as E. rewrite Hd in E. cbn [option_map] in E.
  rewrite null_applyA in E by apply ws_1. exact E.
Qed.
Lemma dec_approx (m : mat T) : nth_error (dec_of p null_denoiser m) (gK g * gspw g) = Some (apm g (padf p m) (gK g)).
Proof. apply dec_pure_nth_approx. Qed.
Lemma chf_detail (m : mat T) s b d i j : (s < gK g)%nat -> nth_error (detf g (padf p m) s) b = Some d ->
  (i < hs g (S s))%nat -> (j < ws g (S s))%nat ->
  chf (dec_of p null_denoiser m) (s * gspw g + b) i j = d i j.
Proof.
  intros Hs Hd Hi Hj. pose proof (dec_details m s b d Hs Hd) as E.
  unfold chf. apply (nth_error_nth _ _ mempty) in E. rewrite E. apply mel_mk; auto.
Qed.
Lemma chf_approx (m : mat T) i j : (i < hs g (gK g))%nat -> (j < ws g (gK g))%nat ->
  chf (dec_of p null_denoiser m) (gK g * gspw g) i j = ap g (padf p m) (gK g) i j.
Proof.
  intros Hi Hj. pose proof (dec_approx m) as E.
  unfold chf. apply (nth_error_nth _ _ mempty) in E. rewrite E. unfold apm. apply mel_mk; auto.
Qed.
End Any.

Section Round.
Variables (u eta : R) (A : Arith R).
Hypothesis (HR : rounding u eta A) (Hu : 0 <= u) (Heta : 0 <= eta).
Variable p : params.
Hypothesis HA : accepted p.
Notation g := (geom_of p).

Lemma padf_R m i j : @padf p R A m i j = @padf p R exactR m i j.
Proof. unfold padf. rewrite (rounding_zero _ _ _ HR). reflexivity. Qed.

Lemma dec_holdsA m : holdsA A g (@dec_of p R A null_denoiser m) (@padf p R A m).
Proof.
  split.
  - intros s b d Hs Hd i j Hi Hj. 
    pose proof (@dec_details R A p m s b d Hs Hd) as E.
    unfold chf. apply (nth_error_nth _ _ mempty) in E. rewrite E. apply mel_mk; auto.
  - intros i j Hi Hj. pose proof (@dec_approx R A p m) as E.
    unfold chf. apply (nth_error_nth _ _ mempty) in E. rewrite E. unfold apm. apply mel_mk; auto.
Qed.

Lemma np_passes : np g = passes p.
Proof. unfold np, passes. rewrite dim_1d, (geom_dim p HA). reflexivity. Qed.
Lemma stepg_gain : stepg u g = step_gain u p.
Proof.
  unfold stepg, step_gain, pass_gain, b1, d1, gam, hsum. rewrite np_passes, <- (geom_t p HA). f_equal. ring.
Qed.
Lemma underflow_kap : underflow u eta p = 2 * INR (gK g) * stepg u g ^ (2 * gK g) * kap u eta g.
Proof.
  unfold underflow, kap, kap1, nu. rewrite (K_nsteps p HA), stepg_gain, np_passes, (hs_level p HA), (ws_level p HA), <- (geom_t p HA).
  rewrite (mult_INR 2 (Z.to_nat (wtype p))). simpl (INR 2). ring.
Qed.

Lemma com_errA m : shaped p m ->
  let o := @com_of p R A 0 (@dec_of p R A null_denoiser m) in
  nrm (drows p) (dcols p) (fun i j => at_ o i j - at_ m i j) <= float_rel u p * sqrt (padded_energy p m) + underflow u eta p.
Proof.
  intros HS. destruct HS as (W & Rm & Cm). cbv zeta.
  pose proof (rec_errA u eta A HR Hu Heta g (geom_wf p HA) (@dec_of p R A null_denoiser m) (@padf p R A m) (gK g) (dec_holdsA m) (Nat.le_refl _)) as H.
  rewrite Nat.sub_diag in H.
  assert (EN : nrm (hs g 0) (ws g 0) (@ap R A g (@padf p R A m) 0) = sqrt (padded_energy p m)).
  { rewrite <- (padded_nrm p HA m Cm). apply nrm_ext. intros. cbn [ap]. apply padf_R. }
  rewrite EN in H. rewrite underflow_kap. unfold float_rel. rewrite <- stepg_gain, <- (K_nsteps p HA).
  eapply Rle_trans; [|exact H].
  unfold com_of, scalem. cbn [Nat.ltb Nat.leb]. rewrite Nat.sub_0_r.
  rewrite (cropfA p HA), crows_0, ccols_0.
  rewrite (nrm_ext _ _ _ (fun i j => (fun i j => @rc R A g (@dec_of p R A null_denoiser m) (gK g) i j - @ap R A g (@padf p R A m) 0 i j)
     (offk_r p 0 + i)%nat (offk_c p 0 + j)%nat)).
  - apply (nrm_sub_off _ _ _ _ _ _ (fun i j => @rc R A g (@dec_of p R A null_denoiser m) (gK g) i j - @ap R A g (@padf p R A m) 0 i j)).
    + rewrite (hs_level p HA), <- crows_0. apply off_fit_r; auto.
    + rewrite (ws_level p HA), <- ccols_0. apply off_fit_c; auto.
  - intros i j Hi Hj. rewrite at_mk by auto. f_equal. cbn [ap]. rewrite padf_R.
    rewrite <- (crop_pad p HA m) at 1 by (split; auto). rewrite (cropf_eq p HA), crows_0, ccols_0.
    rewrite at_mk by auto. reflexivity.
Qed.

Theorem any_rounding b data : @reachable R A p b ->
  (1 <= signum p)%Z -> Z.of_nat (length data) = signum p -> Forall (shaped p) data ->
  exists b' out, @decompose R A b data null_denoiser = Ok (true, b') /\ @compose R A b' 0 = Ok (true, out) /\
    length out = length data /\
    forall c m o, nth_error data c = Some m -> nth_error out c = Some o ->
      sized (drows p) (dcols p) o /\
      sqrt (total (drows p) (fun i => total (dcols p) (fun j => (at_ o i j - at_ m i j) * (at_ o i j - at_ m i j))))
        <= float_rel u p * sqrt (padded_energy p m) + underflow u eta p.
Proof.
  intros Hr Hsig HL HS. eexists _, _. split; [apply (@dec_okA R A p HA b data); auto|].
  split; [apply (@com_okA R A p HA data 0); auto; lia|].
  rewrite map_length. split; auto. intros c m o Hm Ho.
  rewrite nth_error_map, Hm in Ho. inversion Ho; subst o; clear Ho.
  assert (HSm : shaped p m) by (rewrite Forall_forall in HS; apply HS; eapply nth_error_In; eauto).
  split; [|exact (com_errA m HSm)].
  unfold com_of, scalem. cbn [Nat.ltb Nat.leb]. rewrite (cropfA p HA), crows_0, ccols_0.
  split; [apply mk_wf|]. auto.
Qed.
End Round.
