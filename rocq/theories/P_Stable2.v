(** * P_Stable2: API-level facts about moved coefficients. *)
Require Import List Bool Arith ZArith QArith Qreals Lia Reals Lra Psatz.
Require Import ZifyBool.
Require Import Verif.M_Base Verif.M_Params Verif.M_Padding Verif.M_Wavelet Verif.M_Buffer Verif.M_Real Verif.M_Denoise.
Require Import Verif.S_Params Verif.S_Padding Verif.S_Buffer Verif.S_Exact Verif.S_Round Verif.S_Stable.
Require Import Verif.P_Base Verif.P_Wavelet Verif.P_Buffer Verif.P_Impl Verif.P_Api Verif.P_Api2.
Require Import Verif.P_Sum Verif.P_Lin Verif.P_PR Verif.P_L2 Verif.P_Rec Verif.P_Exact Verif.P_Rel Verif.P_Round Verif.P_Round2 Verif.P_Round3 Verif.P_Stable.
Import ListNotations.
Open Scope R_scope.

Lemma gap_rsum l l' : length l = length l' -> gap l l' = rsum (length l) (fun k => sq (nth k l' 0 - nth k l 0)).
Proof.
  revert l'. induction l as [|x l IH]; intros [|y l'] H; try discriminate; [reflexivity|].
  cbn [gap length]. rewrite rsum_S. cbn [nth]. rewrite IH by (simpl in H; lia). reflexivity.
Qed.
Lemma dist_rsum ch ch' : length ch = length ch' ->
  distance2 ch ch' = rsum (length ch) (fun k => gap (elts (nth k ch mempty)) (elts (nth k ch' mempty))).
Proof.
  revert ch'. induction ch as [|x l IH]; intros [|y l'] H; try discriminate; [reflexivity|].
  cbn [distance2 length]. rewrite rsum_S. cbn [nth]. rewrite IH by (simpl in H; lia). reflexivity.
Qed.
Lemma gap_mat r c (m m' : mat R) : sized r c m -> sized r c m' ->
  gap (elts m) (elts m') = rsum2 r c (fun i j => sq (mel 0 m' i j - mel 0 m i j)).
Proof.
  intros (W & Er & Ec) (W' & Er' & Ec'). unfold mwf in *.
  rewrite gap_rsum by (rewrite W, W', Er, Ec, Er', Ec'; reflexivity).
  rewrite W, Er, Ec. destruct c as [|c].
  - rewrite Nat.mul_0_r, rsum2_w0. reflexivity.
  - rewrite rsum2_flat by lia. apply rsum_ext. intros k Hk. unfold mel. rewrite Ec, Ec'.
    rewrite (Nat.mul_comm (k / S c)), <- Nat.div_mod by lia. reflexivity.
Qed.

Lemma gap_nonneg l l' : 0 <= gap l l'.
Proof. revert l'. induction l; intros [|y l']; cbn [gap]; try lra. specialize (IHl l'). pose proof (Rle_0_sqr (y - a)). unfold Rsqr in *. lra. Qed.
Lemma distance2_nonneg l l' : 0 <= distance2 l l'.
Proof. revert l'. induction l; intros [|y l']; cbn [distance2]; try lra. specialize (IHl l'). pose proof (gap_nonneg (elts a) (elts y)). lra. Qed.

Lemma gap_within T l l' : (forall i x y, nth_error l i = Some x -> nth_error l' i = Some y -> Rabs (y - x) <= T) ->
  gap l l' <= INR (changes1 l l') * (T * T).
Proof.
  revert l'. induction l as [|x l IH]; intros [|y l'] H; cbn [gap changes1]; try (simpl INR; lra).
  rewrite plus_INR, Rmult_plus_distr_r. apply Rplus_le_compat.
  - destruct (Req_EM_T x y) as [->|N]; simpl INR; [lra|].
    specialize (H 0%nat x y eq_refl eq_refl). pose proof (Rabs_pos (y - x)).
    change ((y - x) * (y - x)) with (sq (y - x)). rewrite <- sq_abs. unfold sq. nra.
  - apply IH. intros i. apply (H (S i)).
Qed.
Lemma distance2_within T ch ch' : within T ch ch' -> distance2 ch ch' <= INR (changes ch ch') * (T * T).
Proof.
  revert ch'. induction ch as [|m l IH]; intros [|m' l'] H; cbn [distance2 changes]; try (simpl INR; lra).
  rewrite plus_INR, Rmult_plus_distr_r. apply Rplus_le_compat.
  - apply gap_within. exact (H 0%nat m m' eq_refl eq_refl).
  - apply IH. intros k. apply (H (S k)).
Qed.
Lemma root_within T ch ch' : 0 <= T -> within T ch ch' -> sqrt (distance2 ch ch') <= T * sqrt (INR (changes ch ch')).
Proof.
  intros HT H. apply sqrt_le_by; [apply Rmult_le_pos; auto; apply sqrt_pos|].
  replace (T * sqrt (INR (changes ch ch')) * (T * sqrt (INR (changes ch ch'))))
    with (sqrt (INR (changes ch ch')) * sqrt (INR (changes ch ch')) * (T * T)) by ring.
  rewrite sqrt_sqrt by apply pos_INR. apply distance2_within; auto.
Qed.

Lemma lay_nth {T} g (ch : list (mat T)) k : layout g ch -> (k < gK g * gspw g)%nat ->
  sized (hs g (S (k / gspw g))) (ws g (S (k / gspw g))) (nth k ch mempty).
Proof.
  intros (HL & H & _) Hk. pose proof (spw_pos g) as Sp.
  assert (E : k = (k / gspw g * gspw g + k mod gspw g)%nat) by (rewrite Nat.mul_comm; apply Nat.div_mod; lia).
  destruct (nth_error ch k) as [m|] eqn:Em; [|apply nth_error_None in Em; lia].
  rewrite (nth_error_nth _ _ mempty Em). rewrite E in Em.
  unfold sized. apply (H _ (k mod gspw g)%nat); auto.
  - apply Nat.div_lt_upper_bound; lia.
  - apply Nat.mod_upper_bound. lia.
Qed.
Lemma lay_last {T} g (ch : list (mat T)) : layout g ch -> sized (hs g (gK g)) (ws g (gK g)) (nth (gK g * gspw g) ch mempty).
Proof.
  intros (HL & _ & H).
  destruct (nth_error ch (gK g * gspw g)) as [m|] eqn:Em; [|apply nth_error_None in Em; lia].
  rewrite (nth_error_nth _ _ mempty Em). apply H; auto.
Qed.

Section Round.
Variables (u eta : R) (A : Arith R).
Hypothesis (HR : rounding u eta A) (Hu : 0 <= u) (Heta : 0 <= eta).

Lemma moved_distance g (ch0 ch : decomposition R) : layout g ch0 -> layout g ch ->
  moved A g ch0 ch (gK g) = distance2 ch0 ch.
Proof.
  intros L0 L. rewrite moved_all.
  assert (E0 : length ch0 = (gK g * gspw g + 1)%nat) by apply L0.
  rewrite dist_rsum by (rewrite E0; symmetry; apply L).
  rewrite E0, rsum_split. cbn [rsum]. rewrite Rplus_0_l, Nat.add_0_r.
  assert (Z : a0 = 0) by exact (rounding_zero _ _ _ HR).
  f_equal.
  - apply rsum_ext. intros k Hk. rewrite (gap_mat _ _ _ _ (lay_nth g ch0 k L0 Hk) (lay_nth g ch k L Hk)).
    unfold df, chf. rewrite Z. reflexivity.
  - rewrite (gap_mat _ _ _ _ (lay_last g ch0 L0) (lay_last g ch L)). unfold df, chf. rewrite Z. reflexivity.
Qed.

Variable p : params.
Hypothesis HA : accepted p.
Notation g := (geom_of p).

Lemma com_moved m ch : shaped p m -> has_layout p ch ->
  error p (@com_of p R A 0 ch) m <= float_rel u p * sqrt (padded_energy p m) + underflow u eta p
    + step_gain u p ^ nsteps p * sqrt (distance2 (@dec_of p R A null_denoiser m) ch).
Proof.
  intros HS HL. destruct HS as (W & Rm & Cm).
  pose proof (moved_err u eta A HR Hu Heta g (geom_wf p HA) (@dec_of p R A null_denoiser m) ch (@padf p R A m)
     (@dec_holdsA A p m) (gK g) (Nat.le_refl _)) as H.
  rewrite (moved_distance g) in H.
  2:{ apply (layout_iff p HA). apply dec_of_layout; auto. apply null_keepsA. }
  2:{ apply (layout_iff p HA). auto. }
  rewrite Nat.sub_diag in H.
  assert (EN : nrm (hs g 0) (ws g 0) (@ap R A g (@padf p R A m) 0) = sqrt (padded_energy p m)).
  { rewrite <- (padded_nrm p HA m Cm). apply nrm_ext. intros. cbn [ap]. apply (padf_R u eta A HR). }
  rewrite EN in H. rewrite (underflow_kap u eta p HA). unfold float_rel. rewrite <- (stepg_gain u p HA), <- (K_nsteps p HA).
  eapply Rle_trans; [|exact H].
  unfold com_of, scalem. cbn [Nat.ltb Nat.leb]. rewrite Nat.sub_0_r.
  rewrite (cropfA p HA), crows_0, ccols_0.
  change (error p ?o m) with (nrm (drows p) (dcols p) (fun i j => at_ o i j - at_ m i j)).
  rewrite (nrm_ext _ _ _ (fun i j => (fun i j => @rc R A g ch (gK g) i j - @ap R A g (@padf p R A m) 0 i j)
     (offk_r p 0 + i)%nat (offk_c p 0 + j)%nat)).
  - apply (nrm_sub_off _ _ _ _ _ _ (fun i j => @rc R A g ch (gK g) i j - @ap R A g (@padf p R A m) 0 i j)).
    + rewrite (hs_level p HA), <- crows_0. apply off_fit_r; auto.
    + rewrite (ws_level p HA), <- ccols_0. apply off_fit_c; auto.
  - intros i j Hi Hj. rewrite at_mk by auto. f_equal. cbn [ap]. rewrite (padf_R u eta A HR).
    rewrite <- (crop_pad p HA m) at 1 by (split; auto). rewrite (cropf_eq p HA), crows_0, ccols_0.
    rewrite at_mk by auto. reflexivity.
Qed.

Lemma com_sized0 ch : sized (drows p) (dcols p) (@com_of p R A 0 ch).
Proof.
  unfold com_of, scalem. cbn [Nat.ltb Nat.leb]. rewrite (cropfA p HA), crows_0, ccols_0.
  split; [apply mk_wf|]. auto.
Qed.

(** any channels in place of the decomposed ones *)
Theorem moved_compose b data (chs : list (decomposition R)) : @reachable R A p b ->
  (1 <= signum p)%Z -> Z.of_nat (length data) = signum p -> Forall (shaped p) data ->
  length chs = length data -> Forall (has_layout p) chs ->
  exists b0 out, @decompose R A b data null_denoiser = Ok (true, b0) /\
    @compose R A (Buffer p chs) 0 = Ok (true, out) /\ length out = length data /\
    forall c m ch0 ch o, nth_error data c = Some m -> nth_error (bdec b0) c = Some ch0 -> nth_error chs c = Some ch ->
      nth_error out c = Some o ->
      sized (drows p) (dcols p) o /\
      error p o m <= float_rel u p * sqrt (padded_energy p m) + underflow u eta p
        + step_gain u p ^ nsteps p * sqrt (distance2 ch0 ch).
Proof.
  intros Hr Hsig HL HS HLc HLay. eexists _, _. split; [apply (@dec_okA R A p HA b data); auto|].
  split.
  { apply (compose_ok p HA); cbn [bpar bdec].
    - reflexivity.
    - exact (eq_trans (f_equal Z.of_nat HLc) HL).
    - apply Forall_forall. auto.
    - pose proof (acc_steps p HA). lia. }
  rewrite map_length. cbn [bdec]. split; auto. intros c m ch0 ch o Hm Hc0 Hc Ho.
  rewrite nth_error_map, Hc in Ho. inversion Ho; subst o; clear Ho.
  rewrite nth_error_map, Hm in Hc0. inversion Hc0; subst ch0; clear Hc0.
  split; [apply com_sized0|]. apply com_moved.
  - rewrite Forall_forall in HS; apply HS; eapply nth_error_In; eauto.
  - rewrite Forall_forall in HLay; apply HLay; eapply nth_error_In; eauto.
Qed.

(** any denoiser *)
Theorem denoised_compose b data den : @reachable R A p b -> keeps_shape den ->
  (1 <= signum p)%Z -> Z.of_nat (length data) = signum p -> Forall (shaped p) data ->
  exists b0 b1 out, @decompose R A b data null_denoiser = Ok (true, b0) /\
    @decompose R A b data den = Ok (true, b1) /\
    @compose R A b1 0 = Ok (true, out) /\ length out = length data /\
    forall c m ch0 ch o, nth_error data c = Some m -> nth_error (bdec b0) c = Some ch0 -> nth_error (bdec b1) c = Some ch ->
      nth_error out c = Some o ->
      sized (drows p) (dcols p) o /\
      error p o m <= float_rel u p * sqrt (padded_energy p m) + underflow u eta p
        + step_gain u p ^ nsteps p * sqrt (distance2 ch0 ch).
Proof.
  intros Hr Hd Hsig HL HS.
  destruct (moved_compose b data (map (@dec_of p R A den) data)) as (b0 & out & E0 & Ec & Hlen & Hall); auto.
  - apply map_length.
  - apply Forall_forall. intros ch Hin. apply in_map_iff in Hin as (m & <- & _). apply dec_of_layout; auto.
  - exists b0. eexists. exists out. split; [exact E0|]. split; [apply (safe_ok p); auto|].
    split; [exact Ec|]. split; [exact Hlen|]. cbn [bdec]. exact Hall.
Qed.
End Round.

(** ** exact arithmetic *)
Lemma exact_rounding : rounding 0 0 exactR.
Proof.
  split; intros.
  - reflexivity.
  - cbn. match goal with |- Rabs ?x <= _ => replace x with 0 by ring end. rewrite Rabs_R0. lra.
  - cbn. match goal with |- Rabs ?x <= _ => replace x with 0 by ring end. rewrite Rabs_R0. lra.
  - reflexivity.
  - cbn. match goal with |- Rabs ?x <= _ => replace x with 0 by ring end. rewrite Rabs_R0. lra.
Qed.
Lemma pass_gain_0 t : pass_gain 0 t = 1 + Q2R (filter_defect t).
Proof. unfold pass_gain. rewrite Rplus_0_r, pow1. ring. Qed.
Lemma step_gain_0 p n : step_gain 0 p ^ n = (1 + Q2R (filter_defect (wtype p))) ^ (passes p * n).
Proof. unfold step_gain. rewrite pass_gain_0, <- pow_mult. reflexivity. Qed.
Lemma float_rel_0 p : float_rel 0 p = rel_err p.
Proof.
  unfold float_rel, rel_err. rewrite step_gain_0. unfold passes. destruct (is_1d p); do 2 f_equal; lia.
Qed.
Lemma underflow_0 p : underflow 0 0 p = 0.
Proof. unfold underflow. ring. Qed.
Lemma gain_exact_db1 p : wtype p = 1%Z -> gain_exact p = 1.
Proof. intros E. unfold gain_exact. rewrite E. cbn [filter_defect]. rewrite RMicromega.Q2R_0, Rplus_0_r. apply pow1. Qed.
Lemma rel_err_db1 p : wtype p = 1%Z -> rel_err p = 0.
Proof. intros E. unfold rel_err. rewrite E. cbn [filter_defect]. rewrite RMicromega.Q2R_0, Rplus_0_r, pow1. ring. Qed.
Lemma gain_exact_1 p : 1 <= gain_exact p.
Proof. unfold gain_exact. apply pow_R1_Rle. pose proof (eps_pos (wtype p)). lra. Qed.
