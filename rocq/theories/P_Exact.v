(** * P_Exact: API-level facts about exact arithmetic. *)
Require Import List Bool Arith ZArith QArith Qreals Lia Reals Lra.
Require Import ZifyBool.
Require Import Verif.M_Base Verif.M_Params Verif.M_Padding Verif.M_Wavelet Verif.M_Buffer Verif.M_Real.
Require Import Verif.S_Params Verif.S_Padding Verif.S_Buffer Verif.S_Exact.
Require Import Verif.P_Base Verif.P_Wavelet Verif.P_Buffer Verif.P_Impl Verif.P_Api Verif.P_Api2.
Require Import Verif.P_Sum Verif.P_Lin Verif.P_PR Verif.P_L2 Verif.P_Rec.
Import ListNotations.
Open Scope R_scope.

Lemma total_rsum n f : total n f = rsum n f.
Proof. reflexivity. Qed.

Lemma null_keeps : keeps_shape (@null_denoiser R).
Proof. split; [reflexivity|]. intros m s W. repeat split; auto. Qed.

(** ** energy *)
Lemma fold_sum (l : list R) : fold_right (fun x s => x * x + s) 0 l = lsum l sq.
Proof. induction l; simpl; auto. rewrite IHl. reflexivity. Qed.
Lemma energy_mk r c f : energy (mk r c f) = rsum2 r c (fun i j => sq (f i j)).
Proof.
  unfold energy. rewrite fold_sum. destruct c as [|c].
  - rewrite rsum2_w0. unfold mk; cbn [elts]. rewrite Nat.mul_0_r. reflexivity.
  - rewrite rsum2_flat by lia. unfold mk; cbn [elts]. rewrite lsum_map, lsum_seq0. reflexivity.
Qed.

(** ** block sums *)
Lemma rsum_mul a b f : rsum (a * b) f = rsum a (fun u => rsum b (fun v => f (u * b + v)%nat)).
Proof.
  induction a; [reflexivity|]. cbn [rsum]. replace (S a * b)%nat with (a * b + b)%nat by lia.
  rewrite rsum_split, IHa. reflexivity.
Qed.

Lemma lo1 : @lo_r R exactR 1 = [sqrt 2 / 2; sqrt 2 / 2].
Proof.
  rewrite lo_up.
  assert (E : map (fun q => Qeq_bool q (1 # 2)) (loQ 1) = [true; true]) by (vm_compute; reflexivity).
  assert (H : forall q, Qeq_bool q (1 # 2) = true -> up2 q = sqrt 2 / 2).
  { intros q Hq. apply Qeq_bool_eq, Qeq_eqR in Hq. unfold up2. rewrite Hq. unfold Q2R; simpl. lra. }
  destruct (loQ 1) as [|q0 [|q1 [|]]]; try discriminate. simpl in E. inversion E.
  cbn [map]. rewrite !H by congruence. reflexivity.
Qed.
Lemma hi1 : @hi_r R exactR 1 = [sqrt 2 / 2; - (sqrt 2 / 2)].
Proof. unfold hi_r. rewrite lo1. reflexivity. Qed.

Lemma HM1 N x i : (i < N)%nat ->
  mv (2 * N) (HM 1 (2 * N)) x i = sqrt 2 / 2 * (x (2 * i)%nat + x (2 * i + 1)%nat) /\
  mv (2 * N) (HM 1 (2 * N)) x (N + i) = sqrt 2 / 2 * (x (2 * i)%nat - x (2 * i + 1)%nat).
Proof.
  intros Hi. unfold HM. destruct (AM_A (@lo_r R exactR 1) (@hi_r R exactR 1) N x i Hi) as [-> ->].
  rewrite lo1, hi1. cbn [length rsum nth]. rewrite Nat.add_0_r, !Nat.mod_small by lia.
  split; ring.
Qed.

Section X.
Variable p : params.
Hypothesis HA : accepted p.
Let g := geom_of p.
Let Gw : gwf g := geom_wf p HA.

Lemma K_le s : (s < nsteps p)%nat -> (s < gK g)%nat.
Proof. unfold g. rewrite (K_nsteps p HA). auto. Qed.

Lemma min_nearest i off n : Nat.min (i - off) (n - 1) = nearest n (Z.of_nat i - Z.of_nat off).
Proof. unfold nearest. lia. Qed.

Lemma padf_padded m i j : cols m = dcols p -> padf p m i j = padded_at p m i j.
Proof.
  intros C. unfold padf, padded_at, mel, at_, offset.
  rewrite <- (hs_level p HA 0), <- (ws_level p HA 0). rewrite hs_0, ws_0 by exact Gw. fold g.
  rewrite !min_nearest. reflexivity.
Qed.

Lemma dec_ok b data : reachable p b -> (1 <= signum p)%Z -> Z.of_nat (length data) = signum p ->
  Forall (shaped p) data ->
  decompose b data null_denoiser = Ok (true, Buffer p (map (dec_of p null_denoiser) data)).
Proof. intros. apply (safe_ok p); auto. apply null_keeps. Qed.

Lemma com_ok data k : (1 <= signum p)%Z -> Z.of_nat (length data) = signum p ->
  (k <= nsteps p)%nat ->
  compose (Buffer p (map (dec_of p null_denoiser) data)) (Z.of_nat k) =
  Ok (true, map (fun m => com_of p k (dec_of p null_denoiser m)) data).
Proof.
  intros Hsig HL Hk. rewrite (compose_ok p HA); cbn [bpar bdec]; auto.
  - rewrite map_map, Nat2Z.id. reflexivity.
  - rewrite map_length; auto.
  - intros ch Hin. apply in_map_iff in Hin as (m & <- & _). apply dec_of_layout; auto. apply null_keeps.
  - unfold nsteps in Hk. pose proof (acc_steps p HA). lia.
Qed.

Definition crows k := (drows p / 2 ^ k)%nat.
Definition ccols k := (if is_1d p then 1 else dcols p / 2 ^ k)%nat.
Definition offk_r k := ((level_rows p k - crows k) / 2)%nat.
Definition offk_c k := ((level_cols p k - ccols k) / 2)%nat.

Lemma fit_r k : (crows k <= level_rows p k)%nat.
Proof.
  unfold crows. rewrite <- (hs_level p HA). apply Nat.div_le_mono; [apply Nat.pow_nonzero; lia|].
  apply (drows_le p HA).
Qed.
Lemma fit_c k : (ccols k <= level_cols p k)%nat.
Proof.
  unfold ccols. rewrite <- (ws_level p HA), dim_1d. unfold ws. rewrite (geom_dim p HA).
  destruct (gdim (geom_of p) =? 1)%nat; [lia|]. apply Nat.div_le_mono; [apply Nat.pow_nonzero; lia|].
  apply (dcols_le p HA).
Qed.
Lemma off_in_r k i : (i < crows k)%nat -> (offk_r k + i < level_rows p k)%nat.
Proof.
  intros H. pose proof (fit_r k). unfold offk_r.
  pose proof (Nat.div_mod (level_rows p k - crows k) 2 ltac:(lia)). lia.
Qed.
Lemma off_in_c k i : (i < ccols k)%nat -> (offk_c k + i < level_cols p k)%nat.
Proof.
  intros H. pose proof (fit_c k). unfold offk_c.
  pose proof (Nat.div_mod (level_cols p k - ccols k) 2 ltac:(lia)). lia.
Qed.

Lemma cropf_eq k (x : nat -> nat -> R) :
  cropf p k x = mk (crows k) (ccols k) (fun i j => x (offk_r k + i)%nat (offk_c k + j)%nat).
Proof.
  unfold cropf, offk_r, offk_c, crows, ccols. rewrite <- (hs_level p HA), <- (ws_level p HA), dim_1d. reflexivity.
Qed.

Lemma crop_pad m : shaped p m -> cropf p 0 (padf p m) = m.
Proof.
  intros (W & Rm & Cm). rewrite cropf_eq. transitivity (mk (rows m) (cols m) (mel 0 m)); [|symmetry; apply mat_eta; auto].
  rewrite Rm, Cm.
  assert (E1 : crows 0 = drows p) by (unfold crows; rewrite Nat.pow_0_r, Nat.div_1_r; auto).
  assert (E2 : ccols 0 = dcols p).
  { unfold ccols. rewrite Nat.pow_0_r, Nat.div_1_r. destruct (is_1d p) eqn:E1d; auto.
    unfold is_1d in E1d. unfold dcols. destruct (shape p) as [|? [|? [|]]]; auto; discriminate. }
  rewrite E1, E2. apply mk_ext. intros i j Hi Hj. unfold padf.
  rewrite <- (hs_0 (geom_of p)), <- (ws_0 (geom_of p)) by exact Gw.
  rewrite (hs_level p HA), (ws_level p HA). unfold offk_r, offk_c. rewrite E1, E2. f_equal; lia.
Qed.

Lemma dec_holds_p m : holds_dec g (dec_of p null_denoiser m) (padf p m).
Proof. apply dec_holds. Qed.

(** ** C08 *)
Lemma com_db1 m : wtype p = 1%Z -> shaped p m -> com_of p 0 (dec_of p null_denoiser m) = m.
Proof.
  intros Et HS. unfold com_of, scalem. cbn [Nat.ltb Nat.leb]. rewrite Nat.sub_0_r.
  rewrite <- (crop_pad m HS) at 2. rewrite !cropf_eq. apply mk_ext. intros i j Hi Hj.
  pose proof (rec_exact g Gw (dec_of p null_denoiser m) (padf p m) (gK g)) as H.
  rewrite Nat.sub_diag in H. apply H; auto.
  - unfold g. rewrite <- (geom_t p HA). auto.
  - apply dec_holds_p.
  - unfold g. rewrite (hs_level p HA). apply off_in_r; auto.
  - unfold g. rewrite (ws_level p HA). apply off_in_c; auto.
Qed.

Theorem perfect_reconstruction b data : wtype p = 1%Z -> reachable p b ->
  (1 <= signum p)%Z -> Z.of_nat (length data) = signum p -> Forall (shaped p) data ->
  exists b', decompose b data null_denoiser = Ok (true, b') /\ compose b' 0 = Ok (true, data).
Proof.
  intros Et HR Hsig HL HS. eexists. split; [apply dec_ok; auto|].
  change 0%Z with (Z.of_nat 0). rewrite (com_ok data 0) by (auto; lia). do 2 f_equal.
  rewrite <- (map_id data) at 2. apply map_ext_in. intros m Hm. apply com_db1; auto.
  rewrite Forall_forall in HS. auto.
Qed.

(** ** C09 *)
Lemma rel_err_gain : rel_err p = gain g ^ (2 * gK g) - 1.
Proof.
  unfold rel_err, gain, epsW. unfold g. rewrite <- (geom_t p HA), <- (geom_dim p HA), (K_nsteps p HA), <- dim_1d.
  destruct (is_1d p).
  - rewrite Rplus_0_r, Rmult_1_r, Nat.mul_1_r. reflexivity.
  - rewrite Rpow_mult_distr, <- pow_add. do 2 f_equal. lia.
Qed.

Lemma padded_nrm m : cols m = dcols p -> nrm (hs g 0) (ws g 0) (ap g (padf p m) 0) = sqrt (padded_energy p m).
Proof.
  intros C. unfold nrm, padded_energy. f_equal. unfold g. rewrite (hs_level p HA), (ws_level p HA).
  apply rsum_ext. intros i Hi. apply rsum_ext. intros j Hj. cbn [ap]. rewrite (padf_padded m i j C). reflexivity.
Qed.

Lemma at_mk r c f i j : (i < r)%nat -> (j < c)%nat -> at_ (mk r c f) i j = f i j.
Proof. intros. apply (mel_mk 0); auto. Qed.

Lemma nrm_sub_off h' w' h w a b z : (a + h' <= h)%nat -> (b + w' <= w)%nat ->
  nrm h' w' (fun i j => z (a + i)%nat (b + j)%nat) <= nrm h w z.
Proof.
  intros Hh Hw. unfold nrm. apply sqrt_le_1_alt. unfold rsum2.
  replace h with (a + (h' + (h - a - h')))%nat by lia. rewrite !rsum_split.
  set (F := fun i => rsum w (fun j => sq (z i j))).
  assert (0 <= rsum a F) by (apply rsum_nonneg; intros; apply rsum_nonneg; intros; apply sq_pos).
  assert (0 <= rsum (h - a - h') (fun i => F (a + (h' + i))%nat)) by
    (apply rsum_nonneg; intros; apply rsum_nonneg; intros; apply sq_pos).
  assert (rsum h' (fun i => rsum w' (fun j => sq (z (a + i)%nat (b + j)%nat))) <= rsum h' (fun i => F (a + i)%nat)).
  { apply rsum_le. intros i Hi. unfold F. replace w with (b + (w' + (w - b - w')))%nat by lia. rewrite !rsum_split.
    assert (0 <= rsum b (fun j => sq (z (a + i)%nat j))) by (apply rsum_nonneg; intros; apply sq_pos).
    assert (0 <= rsum (w - b - w') (fun j => sq (z (a + i)%nat (b + (w' + j))%nat))) by (apply rsum_nonneg; intros; apply sq_pos).
    lra. }
  unfold F in *. lra.
Qed.

Lemma off_fit_r k : (offk_r k + crows k <= level_rows p k)%nat.
Proof.
  pose proof (fit_r k). unfold offk_r. pose proof (Nat.div_mod (level_rows p k - crows k) 2 ltac:(lia)). lia.
Qed.
Lemma off_fit_c k : (offk_c k + ccols k <= level_cols p k)%nat.
Proof.
  pose proof (fit_c k). unfold offk_c. pose proof (Nat.div_mod (level_cols p k - ccols k) 2 ltac:(lia)). lia.
Qed.
Lemma crows_0 : crows 0 = drows p.
Proof. unfold crows; rewrite Nat.pow_0_r, Nat.div_1_r; auto. Qed.
Lemma ccols_0 : ccols 0 = dcols p.
Proof.
  unfold ccols. rewrite Nat.pow_0_r, Nat.div_1_r. destruct (is_1d p) eqn:E1d; auto.
  unfold is_1d in E1d. unfold dcols. destruct (shape p) as [|? [|? [|]]]; auto; discriminate.
Qed.

Lemma com_err m : shaped p m ->
  let o := com_of p 0 (dec_of p null_denoiser m) in
  nrm (drows p) (dcols p) (fun i j => at_ o i j - at_ m i j) <= rel_err p * sqrt (padded_energy p m).
Proof.
  intros HS. destruct HS as (W & Rm & Cm). cbv zeta.
  pose proof (rec_err g Gw (dec_of p null_denoiser m) (padf p m) (gK g) (dec_holds_p m) (Nat.le_refl _)) as H.
  rewrite Nat.sub_diag, <- rel_err_gain, (padded_nrm m Cm) in H.
  eapply Rle_trans; [|exact H].
  unfold com_of, scalem. cbn [Nat.ltb Nat.leb]. rewrite Nat.sub_0_r.
  rewrite cropf_eq, crows_0, ccols_0. fold g.
  rewrite (nrm_ext _ _ _ (fun i j => (fun i j => rc g (dec_of p null_denoiser m) (gK g) i j - ap g (padf p m) 0 i j)
     (offk_r 0 + i)%nat (offk_c 0 + j)%nat)).
  - apply (nrm_sub_off _ _ _ _ _ _ (fun i j => rc g (dec_of p null_denoiser m) (gK g) i j - ap g (padf p m) 0 i j)); unfold g.
    + rewrite (hs_level p HA), <- crows_0. apply off_fit_r.
    + rewrite (ws_level p HA), <- ccols_0. apply off_fit_c.
  - intros i j Hi Hj. rewrite at_mk by auto. f_equal.
    rewrite <- (crop_pad m) at 1 by (split; auto). rewrite cropf_eq, crows_0, ccols_0.
    rewrite at_mk by auto. reflexivity.
Qed.

Theorem reconstruction_error b data : reachable p b ->
  (1 <= signum p)%Z -> Z.of_nat (length data) = signum p -> Forall (shaped p) data ->
  exists b' out, decompose b data null_denoiser = Ok (true, b') /\ compose b' 0 = Ok (true, out) /\
    length out = length data /\
    forall c m o, nth_error data c = Some m -> nth_error out c = Some o ->
      sized (drows p) (dcols p) o /\
      sqrt (total (drows p) (fun i => total (dcols p) (fun j => (at_ o i j - at_ m i j) * (at_ o i j - at_ m i j))))
        <= rel_err p * sqrt (padded_energy p m) /\
      forall i j, (i < drows p)%nat -> (j < dcols p)%nat ->
        Rabs (at_ o i j - at_ m i j) <= rel_err p * sqrt (padded_energy p m).
Proof.
  intros HR Hsig HL HS. eexists _, _. split; [apply dec_ok; auto|].
  split; [apply (com_ok data 0); auto; lia|].
  rewrite map_length. split; auto. intros c m o Hm Ho.
  rewrite nth_error_map, Hm in Ho. inversion Ho; subst o; clear Ho.
  assert (HSm : shaped p m) by (rewrite Forall_forall in HS; apply HS; eapply nth_error_In; eauto).
  pose proof (com_err m HSm) as H. cbv zeta in H.
  split; [|split].
  - unfold com_of, scalem. cbn [Nat.ltb Nat.leb]. rewrite cropf_eq, crows_0, ccols_0.
    split; [apply mk_wf|]. auto.
  - exact H.
  - intros i j Hi Hj. eapply Rle_trans; [|exact H].
    apply (nrm_elem (drows p) (dcols p) (fun i j => at_ _ i j - at_ m i j)); auto.
Qed.

Lemma steps_62 : wtype p <> 0%Z -> (nsteps p <= 62)%nat.
Proof.
  intros Ht. pose proof (acc_fit p HA Ht) as Hf. pose proof (acc_steps p HA) as Hs. pose proof (acc_type p HA) as Hty.
  assert (E : exists n, In n (shape p) /\ (n < 2 ^ 63)%Z).
  { destruct (acc_cases p HA) as [(n & E & Hn & _)|(w & h & E & Hw & _)]; rewrite E; eexists; split; try (left; reflexivity); lia. }
  destruct E as (n & Hin & Hn). rewrite Forall_forall in Hf. specialize (Hf n Hin).
  assert (0 < 2 ^ steps p)%Z by (apply Z.pow_pos_nonneg; lia).
  assert (2 ^ steps p < 2 ^ 63)%Z by nia. apply Z.pow_lt_mono_r_iff in H0; try lia. unfold nsteps. lia.
Qed.

(** (1+e)^n (1 - n e) <= 1 *)
Lemma bern e n : 0 <= e -> (1 + e) ^ n * (1 - INR n * e) <= 1.
Proof.
  intros He. induction n; [simpl; lra|]. rewrite S_INR. cbn [pow].
  assert (0 < (1 + e) ^ n) by (apply pow_lt; lra).
  assert (0 <= INR n) by apply pos_INR.
  eapply Rle_trans; [|exact IHn].
  replace ((1 + e) * (1 + e) ^ n * (1 - (INR n + 1) * e)) with ((1 + e) ^ n * ((1 + e) * (1 - (INR n + 1) * e))) by ring.
  apply Rmult_le_compat_l; [lra|]. nra.
Qed.

Lemma pow_bound e n d : 0 <= e -> INR n * e <= d -> d < 1 -> (1 + e) ^ n - 1 <= d / (1 - d).
Proof.
  intros He Hn Hd. pose proof (bern e n He) as B.
  assert (P : 0 < (1 + e) ^ n) by (apply pow_lt; lra).
  assert ((1 + e) ^ n * (1 - d) <= 1).
  { eapply Rle_trans; [|exact B]. apply Rmult_le_compat_l; lra. }
  assert ((1 + e) ^ n <= / (1 - d)).
  { apply (Rmult_le_reg_r (1 - d)); [lra|]. rewrite Rinv_l by lra. exact H. }
  replace (d / (1 - d)) with (/ (1 - d) - 1) by (field; lra). lra.
Qed.

Lemma rel_err_small : wtype p <> 0%Z ->
  rel_err p <= 3 / 10 ^ 8 /\ ((wtype p <= 5)%Z -> rel_err p <= 3 / 10 ^ 9).
Proof.
  intros Ht. pose proof (steps_62 Ht) as HK. pose proof (acc_type p HA) as Hty.
  set (n := (2 * (if is_1d p then 1 else 2) * nsteps p)%nat).
  assert (Hn : (n <= 248)%nat) by (unfold n; destruct (is_1d p); lia).
  assert (HnR : INR n <= 248) by (apply le_INR in Hn; simpl in Hn; lra).
  pose proof (pos_INR n) as Hn0.
  assert (G : forall (c e : Q), (0 <= e)%Q -> (Q2R e * 248 <= Q2R c) -> Q2R c < 1 -> Q2R (filter_defect (wtype p)) <= Q2R e ->
     rel_err p <= Q2R c / (1 - Q2R c)).
  { intros c e He Hc Hc1 Hle. unfold rel_err. fold n. pose proof (eps_pos (wtype p)).
    apply pow_bound; auto. nra. }
  assert (D : Q2R (filter_defect (wtype p)) <= Q2R (11 # 100000000000) /\
     ((wtype p <= 5)%Z -> Q2R (filter_defect (wtype p)) <= Q2R (12 # 1000000000000))).
  { assert (Hc : (1 <= wtype p <= 10)%Z) by lia. clear - Hc. revert Hc. generalize (wtype p). apply Z10_cases.
    intros t Hin. simpl in Hin.
    repeat (destruct Hin as [<-|Hin]; [split; [|intros H; try lia]; apply Qle_Rle; unfold Qle; simpl; lia|]).
    destruct Hin. }
  destruct D as [D1 D2]. split.
  - eapply Rle_trans; [apply (G (2728 # 100000000000) (11 # 100000000000)); auto|].
    + unfold Qle; simpl; lia.
    + unfold Q2R; simpl; lra.
    + unfold Q2R; simpl; lra.
    + unfold Q2R; simpl. lra.
  - intros H5. eapply Rle_trans; [apply (G (2976 # 1000000000000) (12 # 1000000000000)); auto|].
    + unfold Qle; simpl; lia.
    + unfold Q2R; simpl; lra.
    + unfold Q2R; simpl; lra.
    + unfold Q2R; simpl. lra.
Qed.

Lemma padded_energy_bound m B : wtype p <> 0%Z -> shaped p m -> Forall (fun x => Rabs x <= B) (elts m) ->
  sqrt (padded_energy p m) <= sqrt (INR (level_rows p 0 * level_cols p 0)) * B.
Proof.
  intros Et (W & Rm & Cm) HB. rewrite <- (padded_nrm m Cm). unfold g at 1 2. rewrite (hs_level p HA), (ws_level p HA).
  destruct (drows_le p HA) as (_ & H1 & _). destruct (dcols_le p HA) as (_ & H2 & _).
  pose proof (acc_type p HA).
  specialize (H1 ltac:(lia)). specialize (H2 ltac:(lia)).
  assert (HB' : forall i j, Rabs (padf p m i j) <= B).
  { intros i j. unfold padf, mel. rewrite Forall_forall in HB. apply HB, nth_In.
    unfold mwf in W. rewrite W, Rm, Cm.
    set (a := Nat.min _ _). set (b := Nat.min _ _).
    assert (a < drows p)%nat by (unfold a; lia). assert (b < dcols p)%nat by (unfold b; lia). nia. }
  apply nrm_bound.
  - eapply Rle_trans; [apply Rabs_pos|apply (HB' 0%nat 0%nat)].
  - intros. apply HB'.
Qed.

(** ** C12 *)
Lemma iso n M : near_id n M 0 -> forall x, nrm1 n (mv n M x) = nrm1 n x.
Proof.
  intros N x. unfold nrm1. transitivity (rsum n (fun i => mv n M x i * mv n M x i)); [reflexivity|].
  rewrite mv_adjoint. apply rsum_ext. intros j Hj. rewrite near_id_exact by auto. reflexivity.
Qed.
Lemma An_iso h w H W x : near_id h H 0 -> near_id w W 0 ->
  rsum2 h w (fun i j => sq (An h w H W x i j)) = rsum2 h w (fun i j => sq (x i j)).
Proof.
  intros NH NW. rewrite rsum2_swap. unfold An.
  transitivity (rsum2 w h (fun j i => sq (mv w W (x i) j))).
  - apply rsum_ext. intros j Hj. apply (iso h H NH (fun i' => mv w W (x i') j)).
  - rewrite rsum2_swap. apply rsum_ext. intros i Hi. apply (iso w W NW (x i)).
Qed.

Lemma rsum2_quads h w (f : nat -> nat -> R) :
  rsum2 (h + h) (w + w) f = rsum2 h w f + rsum2 h w (fun i j => f (h + i)%nat j) +
    rsum2 h w (fun i j => f i (w + j)%nat) + rsum2 h w (fun i j => f (h + i)%nat (w + j)%nat).
Proof.
  unfold rsum2. rewrite rsum_split.
  rewrite (rsum_ext h (fun i => rsum (w + w) (fun j => f i j)) (fun i => rsum w (fun j => f i j) + rsum w (fun j => f i (w + j)%nat)))
    by (intros; apply rsum_split).
  rewrite (rsum_ext h (fun i => rsum (w + w) (fun j => f (h + i)%nat j))
     (fun i => rsum w (fun j => f (h + i)%nat j) + rsum w (fun j => f (h + i)%nat (w + j)%nat)))
    by (intros; apply (rsum_split w w)).
  rewrite !rsum_plus. ring.
Qed.

Lemma eps1 : wtype p = 1%Z -> near_id 0 idm 0 -> Q2R (filter_defect (gt g)) = 0 /\ epsW g = 0.
Proof.
  intros Et _. unfold epsW, g. rewrite <- (geom_t p HA), Et. cbn [filter_defect]. rewrite RMicromega.Q2R_0.
  destruct (gdim (geom_of p) =? 1)%nat; auto.
Qed.

Lemma level_energy x s : wtype p = 1%Z -> (s < gK g)%nat ->
  lsum (detm g x s) energy + energy (apm g x (S s)) = energy (apm g x s).
Proof.
  intros Et Hs. destruct (eps1 Et (idm_near 0)) as [E1 E2].
  assert (NH : near_id (hs g s) (HM (gt g) (hs g s)) 0) by (rewrite <- E1; apply near_h; auto).
  assert (NW : near_id (ws g s) (WM g (ws g s)) 0) by (rewrite <- E2; apply near_w; auto).
  unfold apm at 2. rewrite energy_mk. rewrite <- (An_iso _ _ _ _ (ap g x s) NH NW).
  fold (Ans g s (ap g x s)).
  assert (Ea : energy (apm g x (S s)) = rsum2 (hs g (S s)) (ws g (S s)) (fun i j => sq (Ans g s (ap g x s) i j))).
  { unfold apm. rewrite energy_mk. apply rsum2_ext. intros. rewrite (ana_glue g Gw) by auto. reflexivity. }
  assert (Ed : forall b d, nth_error (detf g x s) b = Some d ->
     energy (mk (hs g (S s)) (ws g (S s)) d) =
     rsum2 (hs g (S s)) (ws g (S s)) (fun i j => sq (Ans g s (ap g x s) (offr b (hs g (S s)) i) (offc b (ws g (S s)) j)))).
  { intros b d Hd. rewrite energy_mk. apply rsum2_ext. intros. rewrite (det_glue g Gw x s b i j d) by auto. reflexivity. }
  rewrite Ea. unfold detm. rewrite lsum_map.
  pose proof (hs_step g s Gw Hs) as (Hh & _). rewrite Hh. replace (2 * hs g (S s))%nat with (hs g (S s) + hs g (S s))%nat by lia.
  destruct (gdim_cases g Gw) as [E|E].
  - assert (Hlen : length (detf g x s) = 1%nat) by (rewrite detf_length; unfold gspw; rewrite E; reflexivity).
    destruct (detf g x s) as [|d0 [|]] eqn:Edf; try discriminate. cbn [lsum].
    rewrite (Ed 0%nat d0 eq_refl). rewrite !(ws_1 g _ E). unfold rsum2 at 3. rewrite rsum_split.
    unfold offr, offc; cbn [Nat.eqb]. unfold rsum2. ring.
  - pose proof (ws_step g s Gw E Hs) as (Hw & _). rewrite Hw.
    replace (2 * ws g (S s))%nat with (ws g (S s) + ws g (S s))%nat by lia.
    assert (Hlen : length (detf g x s) = 3%nat) by (rewrite detf_length; unfold gspw; rewrite E; reflexivity).
    destruct (detf g x s) as [|d0 [|d1 [|d2 [|]]]] eqn:Edf; try discriminate. cbn [lsum].
    rewrite (Ed 0%nat d0 eq_refl), (Ed 1%nat d1 eq_refl), (Ed 2%nat d2 eq_refl).
    rewrite rsum2_quads. unfold offr, offc; cbn [Nat.eqb]. ring.
Qed.

Lemma levels_energy x n : wtype p = 1%Z -> (n <= gK g)%nat ->
  lsum (flat_map (fun s => map (fun m => den_apply (gdim g) null_denoiser m s) (detm g x s)) (seq 0 n)) energy
  + energy (apm g x n) = energy (apm g x 0).
Proof.
  intros Et. induction n; intros Hn; [simpl; lra|].
  rewrite <- IHn by lia. rewrite flat_map_seq_S, lsum_app, Rplus_assoc. f_equal.
  rewrite <- (level_energy x n Et) by lia. f_equal.
  rewrite lsum_map. apply lsum_ext. intros m Hm. unfold detm in Hm. apply in_map_iff in Hm as (d & <- & _).
  rewrite null_apply; auto. intros E. apply ws_1; auto.
Qed.

Lemma channel_energy_lsum ch : channel_energy ch = lsum ch energy.
Proof. induction ch; simpl; auto. rewrite IHch. reflexivity. Qed.

Lemma energy_db1 m : wtype p = 1%Z -> shaped p m ->
  channel_energy (dec_of p null_denoiser m) = padded_energy p m.
Proof.
  intros Et (W & Rm & Cm). rewrite channel_energy_lsum. unfold dec_of, dec_pure. rewrite lsum_app. cbn [lsum].
  rewrite Rplus_0_r. fold g. rewrite levels_energy by auto. unfold apm. rewrite energy_mk.
  unfold padded_energy. unfold g. rewrite (hs_level p HA), (ws_level p HA).
  apply rsum2_ext. intros i j _ _. cbn [ap]. rewrite padf_padded by auto. reflexivity.
Qed.

Lemma padded_energy_id m : shaped p m -> level_rows p 0 = drows p -> level_cols p 0 = dcols p ->
  padded_energy p m = energy m.
Proof.
  intros (W & Rm & Cm) H1 H2. rewrite (mat_eta 0 m W) at 2. rewrite energy_mk, Rm, Cm.
  unfold padded_energy. rewrite H1, H2. apply rsum2_ext. intros i j Hi Hj.
  unfold padded_at. rewrite H1, H2. unfold offset. rewrite !Nat.sub_diag. unfold nearest.
  unfold mel, at_, sq. replace (Z.to_nat (Z.max 0 (Z.min (Z.of_nat i - Z.of_nat (0 / 2)) (Z.of_nat (drows p) - 1)))) with i by (change (0 / 2)%nat with 0%nat; lia).
  replace (Z.to_nat (Z.max 0 (Z.min (Z.of_nat j - Z.of_nat (0 / 2)) (Z.of_nat (dcols p) - 1)))) with j by (change (0 / 2)%nat with 0%nat; lia).
  reflexivity.
Qed.

Theorem energy_preserved b b' data : wtype p = 1%Z -> reachable p b ->
  (1 <= signum p)%Z -> Z.of_nat (length data) = signum p -> Forall (shaped p) data ->
  decompose b data null_denoiser = Ok (true, b') ->
  length (bdec b') = length data /\
  forall c m ch, nth_error data c = Some m -> nth_error (bdec b') c = Some ch ->
    channel_energy ch = padded_energy p m /\
    (level_rows p 0 = drows p -> level_cols p 0 = dcols p -> channel_energy ch = energy m).
Proof.
  intros Et HR Hsig HL HS HD. rewrite dec_ok in HD by auto. inversion HD; subst b'; clear HD. cbn [bdec].
  rewrite map_length. split; auto. intros c m ch Hm Hc. rewrite nth_error_map, Hm in Hc. inversion Hc; subst ch.
  assert (HSm : shaped p m) by (rewrite Forall_forall in HS; apply HS; eapply nth_error_In; eauto).
  rewrite energy_db1 by auto. split; auto. intros. apply padded_energy_id; auto.
Qed.

(** ** C13 *)
Definition wb (s : nat) : nat := if is_1d p then 1%nat else (2 ^ s)%nat.
Definition cf : R := if is_1d p then sqrt 2 / 2 else 1 / 2.
Lemma is1 : is_1d p = Nat.eqb (gdim g) 1.
Proof. rewrite dim_1d. unfold g. rewrite <- (geom_dim p HA). reflexivity. Qed.

Lemma ap_step x s i j : wtype p = 1%Z -> (s < gK g)%nat -> (i < hs g (S s))%nat -> (j < ws g (S s))%nat ->
  ap g x (S s) i j = cf * rsum 2 (fun u => rsum (wb 1) (fun v => ap g x s (i * 2 + u)%nat (j * wb 1 + v)%nat)).
Proof.
  intros Et Hs Hi Hj. rewrite (ana_glue g Gw) by auto. unfold Ans, WM.
  assert (Eg : gt g = 1%Z) by (unfold g; rewrite <- (geom_t p HA); auto). rewrite Eg.
  pose proof (hs_step g s Gw Hs) as (Hh & _). rewrite Hh.
  unfold cf, wb. rewrite is1. set (y := ap g x s).
  destruct (gdim_cases g Gw) as [E|E]; rewrite E; cbn [Nat.eqb].
  - rewrite (ws_1 g s E). rewrite (ws_1 g (S s) E) in Hj. replace j with 0%nat by lia. rewrite An_1.
    rewrite (proj1 (HM1 _ (fun i' => y i' 0%nat) i Hi)). cbn [rsum].
    rewrite !(Nat.mul_comm i 2), !Nat.add_0_r. cbn [Nat.mul]. ring.
  - pose proof (ws_step g s Gw E Hs) as (Hw & _). rewrite Hw. unfold An.
    rewrite (proj1 (HM1 _ (fun i' => _) i Hi)). rewrite !(proj1 (HM1 _ _ j Hj)).
    change (2 ^ 1)%nat with 2%nat. cbn [rsum]. rewrite !(Nat.mul_comm i 2), !(Nat.mul_comm j 2), !Nat.add_0_r.
    assert (S2 : sqrt 2 * sqrt 2 = 2) by (apply sqrt_sqrt; lra).
    set (q := sqrt 2) in *.
    replace (1 / 2) with (q * q / 4) by lra. field.
Qed.

Lemma ap_block x s : wtype p = 1%Z -> (s <= gK g)%nat -> forall i j, (i < hs g s)%nat -> (j < ws g s)%nat ->
  ap g x s i j = cf ^ s * rsum (2 ^ s) (fun u => rsum (wb s) (fun v => x (i * 2 ^ s + u)%nat (j * wb s + v)%nat)).
Proof.
  intros Et. induction s; intros Hs i j Hi Hj.
  - assert (E : wb 0 = 1%nat) by (unfold wb; destruct (is_1d p); reflexivity). rewrite E.
    cbn [ap pow Nat.pow rsum]. rewrite !Nat.mul_1_r, !Nat.add_0_r. ring.
  - rewrite ap_step by (auto; lia).
    assert (Ew : wb (S s) = (wb 1 * wb s)%nat) by (unfold wb; destruct (is_1d p); simpl; lia).
    rewrite (rsum_ext 2 _ (fun u => rsum (wb 1) (fun v => cf ^ s *
       rsum (2 ^ s) (fun u' => rsum (wb s) (fun v' => x ((i * 2 + u) * 2 ^ s + u')%nat ((j * wb 1 + v) * wb s + v')%nat))))).
    2:{ intros u Hu. apply rsum_ext. intros v Hv. apply IHs; [lia| |].
        - pose proof (hs_step g s Gw ltac:(lia)) as (Hh & _). lia.
        - unfold wb in Hv |- *. rewrite is1 in *. destruct (gdim_cases g Gw) as [E|E]; rewrite E in *; cbn [Nat.eqb] in *.
          + rewrite (ws_1 g s E). rewrite (ws_1 g (S s) E) in Hj. lia.
          + pose proof (ws_step g s Gw E ltac:(lia)) as (Hw & _). change (2 ^ 1)%nat with 2%nat in *. lia. }
    cbn [pow]. rewrite Rmult_assoc. f_equal.
    rewrite (rsum_ext 2 _ (fun u => cf ^ s * rsum (wb 1) (fun v =>
       rsum (2 ^ s) (fun u' => rsum (wb s) (fun v' => x ((i * 2 + u) * 2 ^ s + u')%nat ((j * wb 1 + v) * wb s + v')%nat)))))
      by (intros; apply rsum_scal).
    rewrite rsum_scal. f_equal.
    rewrite Nat.pow_succ_r', rsum_mul. apply rsum_ext. intros u Hu. rewrite rsum_swap. apply rsum_ext. intros u' Hu'.
    rewrite Ew, rsum_mul. apply rsum_ext. intros v Hv. apply rsum_ext. intros v' Hv'.
    f_equal; lia.
Qed.

Lemma cf_pow k : cf ^ k / (if Nat.eqb (dimension p) 2 then 2 else sqrt 2) ^ k = / INR (2 ^ k * wb k).
Proof.
  assert (H2 : INR (2 ^ k) = 2 ^ k) by (rewrite pow_INR; simpl; reflexivity).
  assert (HP : 2 ^ k <> 0) by (apply pow_nonzero; lra).
  unfold cf, wb. rewrite dim_1d.
  assert (Hd : dimension p = 1%nat \/ dimension p = 2%nat) by (rewrite (geom_dim p HA); apply gdim_cases, Gw).
  destruct Hd as [E|E]; rewrite E; cbn [Nat.eqb].
  - rewrite Nat.mul_1_r, H2. unfold Rdiv at 2. rewrite Rpow_mult_distr.
    assert (sqrt 2 ^ k <> 0) by (apply pow_nonzero; assert (0 < sqrt 2) by (apply sqrt_lt_R0; lra); lra).
    rewrite pow_inv by lra. field. auto.
  - rewrite mult_INR, H2. unfold Rdiv at 2. rewrite Rmult_1_l, pow_inv by lra. field. auto.
Qed.

Lemma com_block m k : wtype p = 1%Z -> shaped p m -> (k <= nsteps p)%nat ->
  com_of p k (dec_of p null_denoiser m) =
  mk (crows k) (ccols k) (fun i j => block_mean p m k (offk_r k + i) (offk_c k + j)).
Proof.
  intros Et (W & Rm & Cm) Hk. rewrite <- (K_nsteps p HA) in Hk. fold g in Hk.
  assert (Eg : gt g = 1%Z) by (unfold g; rewrite <- (geom_t p HA); auto).
  unfold com_of. rewrite cropf_eq.
  assert (E : forall i j, (i < crows k)%nat -> (j < ccols k)%nat ->
     rc (geom_of p) (dec_of p null_denoiser m) (gK (geom_of p) - k) (offk_r k + i) (offk_c k + j) =
     cf ^ k * rsum (2 ^ k) (fun u => rsum (wb k) (fun v => padded_at p m ((offk_r k + i) * 2 ^ k + u) ((offk_c k + j) * wb k + v)))).
  { intros i j Hi Hj. fold g.
    assert (B1 : (offk_r k + i < hs g k)%nat) by (unfold g; rewrite (hs_level p HA); apply off_in_r; auto).
    assert (B2 : (offk_c k + j < ws g k)%nat) by (unfold g; rewrite (ws_level p HA); apply off_in_c; auto).
    pose proof (rec_exact g Gw (dec_of p null_denoiser m) (padf p m) (gK g - k) Eg (dec_holds_p m) ltac:(lia)) as H.
    replace (gK g - (gK g - k))%nat with k in H by lia.
    rewrite H by auto. rewrite ap_block by auto. f_equal. apply rsum_ext. intros u Hu. apply rsum_ext. intros v Hv.
    apply padf_padded; auto. }
  assert (EB : forall i j, cf ^ k * rsum (2 ^ k) (fun u => rsum (wb k) (fun v => padded_at p m (i * 2 ^ k + u) (j * wb k + v)))
     / (if Nat.eqb (dimension p) 2 then 2 else sqrt 2) ^ k = block_mean p m k i j).
  { intros i j. unfold block_mean. fold (wb k). cbv zeta. change total with rsum.
    set (Y := rsum (2 ^ k) _). unfold Rdiv. rewrite <- (cf_pow k). unfold Rdiv. ring. }
  unfold scalem. destruct (Nat.ltb_spec 0 k) as [Hk0|Hk0].
  - unfold mk; cbn [rows cols elts]. f_equal. rewrite map_map. apply map_ext_in. intros q Hq. apply in_seq in Hq.
    cbn [ascale exactR].
    destruct (Nat.eq_dec (ccols k) 0) as [Z0|Z0]; [nia|].
    assert (q / ccols k < crows k)%nat by (apply Nat.div_lt_upper_bound; lia).
    assert (q mod ccols k < ccols k)%nat by (apply Nat.mod_upper_bound; lia).
    rewrite E by auto. apply EB.
  - assert (k = 0)%nat by lia. subst k. apply mk_ext. intros i j Hi Hj. rewrite E by auto. rewrite <- EB.
    cbn [pow]. field.
Qed.

Theorem scaled_compose b b' data k : wtype p = 1%Z -> reachable p b ->
  (1 <= signum p)%Z -> Z.of_nat (length data) = signum p -> Forall (shaped p) data ->
  decompose b data null_denoiser = Ok (true, b') -> (k <= nsteps p)%nat ->
  exists out, compose b' (Z.of_nat k) = Ok (true, out) /\ length out = length data /\
    forall c m o, nth_error data c = Some m -> nth_error out c = Some o ->
      let r := (drows p / 2 ^ k)%nat in
      let w := if is_1d p then 1%nat else (dcols p / 2 ^ k)%nat in
      sized r w o /\
      forall i j, (i < r)%nat -> (j < w)%nat ->
        at_ o i j = block_mean p m k ((level_rows p k - r) / 2 + i) ((level_cols p k - w) / 2 + j).
Proof.
  intros Et HR Hsig HL HS HD Hk. rewrite dec_ok in HD by auto. inversion HD; subst b'; clear HD.
  eexists. split; [apply com_ok; auto|]. rewrite map_length. split; auto.
  intros c m o Hm Ho r w. rewrite nth_error_map, Hm in Ho. inversion Ho; subst o; clear Ho.
  assert (HSm : shaped p m) by (rewrite Forall_forall in HS; apply HS; eapply nth_error_In; eauto).
  rewrite com_block by auto. split; [split; [apply mk_wf|auto]|].
  intros i j Hi Hj. rewrite at_mk by auto. reflexivity.
Qed.

(** ** constants *)
Lemma padded_const m v i j : wtype p = 1%Z -> shaped p m -> constant v m -> padded_at p m i j = v.
Proof.
  intros Et (W & Rm & Cm) HC. rewrite <- padf_padded by auto. unfold padf, mel.
  destruct (drows_le p HA) as (_ & H1 & _). destruct (dcols_le p HA) as (_ & H2 & _).
  specialize (H1 ltac:(lia)). specialize (H2 ltac:(lia)).
  unfold constant in HC. rewrite Forall_forall in HC. apply HC. apply nth_In.
  unfold mwf in W. rewrite W, Rm, Cm.
  set (a := Nat.min _ _). set (b := Nat.min _ _).
  assert (a < drows p)%nat by (unfold a; lia). assert (b < dcols p)%nat by (unfold b; lia). nia.
Qed.

Lemma block_mean_const m v k i j : wtype p = 1%Z -> shaped p m -> constant v m -> block_mean p m k i j = v.
Proof.
  intros Et HS HC. unfold block_mean. fold (wb k). cbv zeta. change total with rsum.
  rewrite (rsum_ext _ _ (fun _ => INR (wb k) * v)).
  - rewrite rsum_const, mult_INR. field. split; apply not_0_INR.
    + unfold wb. destruct (is_1d p); [lia|apply Nat.pow_nonzero; lia].
    + apply Nat.pow_nonzero; lia.
  - intros u Hu. rewrite (rsum_ext _ _ (fun _ => v)) by (intros; apply padded_const; auto).
    apply rsum_const.
Qed.

Theorem constant_compose b b' data k v c m : wtype p = 1%Z -> reachable p b ->
  (1 <= signum p)%Z -> Z.of_nat (length data) = signum p -> Forall (shaped p) data ->
  decompose b data null_denoiser = Ok (true, b') -> (k <= nsteps p)%nat ->
  nth_error data c = Some m -> constant v m ->
  exists out o, compose b' (Z.of_nat k) = Ok (true, out) /\ nth_error out c = Some o /\ constant v o.
Proof.
  intros Et HR Hsig HL HS HD Hk Hm HC. rewrite dec_ok in HD by auto. inversion HD; subst b'; clear HD.
  eexists _, _. split; [apply com_ok; auto|]. rewrite nth_error_map, Hm. split; [reflexivity|].
  assert (HSm : shaped p m) by (rewrite Forall_forall in HS; apply HS; eapply nth_error_In; eauto).
  rewrite com_block by auto. unfold constant, mk; cbn [elts]. apply Forall_forall. intros x Hx.
  apply in_map_iff in Hx as (q & <- & _). apply block_mean_const; auto.
Qed.

Lemma ap_const v x s i j : wtype p = 1%Z -> (forall i j, x i j = v) -> (s <= gK g)%nat ->
  (i < hs g s)%nat -> (j < ws g s)%nat -> ap g x s i j = cf ^ s * (INR (2 ^ s * wb s) * v).
Proof.
  intros Et Hx Hs Hi Hj. rewrite ap_block by auto. f_equal.
  rewrite (rsum_ext _ _ (fun _ => INR (wb s) * v)).
  - rewrite rsum_const, mult_INR. ring.
  - intros. rewrite (rsum_ext _ _ (fun _ => v)) by (intros; apply Hx). apply rsum_const.
Qed.
Lemma cf_gain s : cf ^ s * INR (2 ^ s * wb s) = (if is_1d p then sqrt 2 else 2) ^ s.
Proof.
  pose proof (cf_pow s) as H.
  assert (Hd : dimension p = 1%nat \/ dimension p = 2%nat) by (rewrite (geom_dim p HA); apply gdim_cases, Gw).
  assert (E : (if Nat.eqb (dimension p) 2 then 2 else sqrt 2) = (if is_1d p then sqrt 2 else 2)).
  { rewrite dim_1d. destruct Hd as [E|E]; rewrite E; reflexivity. }
  rewrite E in H. set (a := (if is_1d p then sqrt 2 else 2)) in *.
  assert (0 < a) by (unfold a; destruct (is_1d p); [apply sqrt_lt_R0|]; lra).
  assert (a ^ s <> 0) by (apply pow_nonzero; lra).
  assert (INR (2 ^ s * wb s) <> 0).
  { apply not_0_INR. assert (2 ^ s <> 0)%nat by (apply Nat.pow_nonzero; lia).
    assert (wb s <> 0)%nat by (unfold wb; destruct (is_1d p); auto). nia. }
  assert (cf ^ s = / INR (2 ^ s * wb s) * a ^ s) by (rewrite <- H; field; auto).
  rewrite H3. field. auto.
Qed.

Lemma det_const v x s b d i j : wtype p = 1%Z -> (forall i j, x i j = v) -> (s < gK g)%nat ->
  nth_error (detf g x s) b = Some d -> (i < hs g (S s))%nat -> (j < ws g (S s))%nat -> d i j = 0.
Proof.
  intros Et Hx Hs Hd Hi Hj. rewrite (det_glue g Gw x s b i j d) by auto.
  assert (Eg : gt g = 1%Z) by (unfold g; rewrite <- (geom_t p HA); auto).
  assert (Hb : (b < gspw g)%nat).
  { rewrite <- (detf_length g x s). apply nth_error_Some. congruence. }
  unfold Ans. set (y := ap g x s). set (cst := cf ^ s * (INR (2 ^ s * wb s) * v)).
  pose proof (hs_step g s Gw Hs) as (Hh & _).
  assert (Hy : forall i j, (i < hs g s)%nat -> (j < ws g s)%nat -> y i j = cst) by (intros; apply ap_const; auto; lia).
  rewrite Eg. unfold An, WM. rewrite Eg.
  destruct (gdim_cases g Gw) as [E|E]; rewrite E; cbn [Nat.eqb].
  - unfold gspw in Hb. rewrite E in Hb. cbn [Nat.eqb] in Hb. replace b with 0%nat by lia. unfold offr, offc; cbn [Nat.eqb].
    rewrite (ws_1 g s E) in *. rewrite (ws_1 g (S s) E) in Hj. replace j with 0%nat by lia.
    rewrite Hh at 1 2. rewrite (proj2 (HM1 (hs g (S s)) _ i Hi)).
    rewrite !(proj1 (idm_mv 1 _ 0%nat (Nat.lt_0_1))). rewrite !Hy by lia. ring.
  - pose proof (ws_step g s Gw E Hs) as (Hw & _).
    assert (Hrow : forall i', (i' < hs g s)%nat -> forall j, (j < ws g (S s))%nat ->
       mv (ws g s) (HM 1 (ws g s)) (y i') j = sqrt 2 / 2 * (cst + cst) /\
       mv (ws g s) (HM 1 (ws g s)) (y i') (ws g (S s) + j) = 0).
    { intros i' Hi' j' Hj'. rewrite Hw at 1 2 3 4. destruct (HM1 (ws g (S s)) (y i') j' Hj') as [-> ->].
      rewrite !Hy by lia. split; ring. }
    unfold gspw in Hb. rewrite E in Hb. cbn [Nat.eqb] in Hb.
    destruct b as [|[|[|b]]]; [| | |lia]; unfold offr, offc; cbn [Nat.eqb]; rewrite Hh at 1 2.
    + rewrite (proj2 (HM1 (hs g (S s)) _ i Hi)). rewrite (proj1 (Hrow (2 * i)%nat ltac:(lia) j Hj)), (proj1 (Hrow (2 * i + 1)%nat ltac:(lia) j Hj)). ring.
    + rewrite (proj1 (HM1 (hs g (S s)) _ i Hi)). rewrite (proj2 (Hrow (2 * i)%nat ltac:(lia) j Hj)), (proj2 (Hrow (2 * i + 1)%nat ltac:(lia) j Hj)). ring.
    + rewrite (proj2 (HM1 (hs g (S s)) _ i Hi)). rewrite (proj2 (Hrow (2 * i)%nat ltac:(lia) j Hj)), (proj2 (Hrow (2 * i + 1)%nat ltac:(lia) j Hj)). ring.
Qed.

(** samples outside the padded domain do not matter: extend x by a constant *)
Lemma padf_const m v : wtype p = 1%Z -> shaped p m -> constant v m -> forall i j, padf p m i j = v.
Proof. intros. rewrite padf_padded by apply H0. apply padded_const; auto. Qed.

Lemma forall_mk r c f (P : R -> Prop) : (forall i j, (i < r)%nat -> (j < c)%nat -> P (f i j)) -> Forall P (elts (mk r c f)).
Proof.
  intros H. unfold mk; cbn [elts]. apply Forall_forall. intros x Hx. apply in_map_iff in Hx as (q & <- & Hq).
  apply in_seq in Hq. destruct (Nat.eq_dec c 0) as [->|Hc]; [lia|].
  apply H; [apply Nat.div_lt_upper_bound; lia|apply Nat.mod_upper_bound; lia].
Qed.

Theorem constant_details b b' data v c m ch : wtype p = 1%Z -> reachable p b ->
  (1 <= signum p)%Z -> Z.of_nat (length data) = signum p -> Forall (shaped p) data ->
  decompose b data null_denoiser = Ok (true, b') ->
  nth_error data c = Some m -> constant v m -> nth_error (bdec b') c = Some ch ->
  exists details a, ch = details ++ [a] /\ length details = (nsteps p * bands p)%nat /\
    Forall (constant 0) details /\ constant (v * (if is_1d p then sqrt 2 else 2) ^ nsteps p) a.
Proof.
  intros Et HR Hsig HL HS HD Hm HC Hc. rewrite dec_ok in HD by auto. inversion HD; subst b'; clear HD.
  cbn [bdec] in Hc. rewrite nth_error_map, Hm in Hc. inversion Hc; subst ch; clear Hc.
  assert (HSm : shaped p m) by (rewrite Forall_forall in HS; apply HS; eapply nth_error_In; eauto).
  pose proof (padf_const m v Et HSm HC) as Hx.
  unfold dec_of, dec_pure. fold g. eexists _, _. split; [reflexivity|]. split; [|split].
  - rewrite <- (K_nsteps p HA), <- (spw_bands p HA). apply flat_map_seq_length. intros. rewrite map_length. apply detm_length.
  - apply Forall_forall. intros d Hd. apply in_flat_map in Hd as (s & Hs & Hd). apply in_seq in Hs.
    apply in_map_iff in Hd as (d' & <- & Hd). unfold detm in Hd. apply in_map_iff in Hd as (f & <- & Hf).
    rewrite null_apply by (intros; apply ws_1; auto).
    apply In_nth_error in Hf as (bb & Hf). unfold constant. apply forall_mk. intros i j Hi Hj.
    apply (det_const v (padf p m) s bb); auto. lia.
  - unfold apm. apply forall_mk. intros i j Hi Hj. rewrite (ap_const v) by auto.
    rewrite <- Rmult_assoc, cf_gain. unfold g. rewrite (K_nsteps p HA). ring.
Qed.

(** ** C11 *)
Lemma ap_lin a c x y s : (s <= gK g)%nat -> forall i j, (i < hs g s)%nat -> (j < ws g s)%nat ->
  ap g (fun i j => a * x i j + c * y i j) s i j = a * ap g x s i j + c * ap g y s i j.
Proof.
  induction s; intros Hs i j Hi Hj; [reflexivity|].
  rewrite !(ana_glue g Gw) by (auto; lia). unfold Ans. rewrite <- An_lin. apply An_ext.
  intros. apply IHs; auto; lia.
Qed.
Lemma det_lin a c x y s b dx dy dz : (s < gK g)%nat ->
  nth_error (detf g x s) b = Some dx -> nth_error (detf g y s) b = Some dy ->
  nth_error (detf g (fun i j => a * x i j + c * y i j) s) b = Some dz ->
  forall i j, (i < hs g (S s))%nat -> (j < ws g (S s))%nat -> dz i j = a * dx i j + c * dy i j.
Proof.
  intros Hs Hx Hy Hz i j Hi Hj.
  rewrite (det_glue g Gw _ s b i j dx), (det_glue g Gw _ s b i j dy), (det_glue g Gw _ s b i j dz) by eauto.
  unfold Ans. rewrite <- An_lin. apply An_ext. intros. apply ap_lin; auto; lia.
Qed.

Lemma nth_combine_lin a c (u v : list R) k : length u = length v ->
  nth k (map (fun q => a * fst q + c * snd q) (combine u v)) 0 = a * nth k u 0 + c * nth k v 0.
Proof.
  revert v k; induction u as [|x u IH]; intros [|y v] k Hl; try discriminate.
  - destruct k; simpl; ring.
  - destruct k; simpl; [reflexivity|]. apply IH. simpl in Hl; lia.
Qed.

Lemma combines_mk a c r w x y z : (forall i j, (i < r)%nat -> (j < w)%nat -> z i j = a * x i j + c * y i j) ->
  combines a c (mk r w x) (mk r w y) (mk r w z).
Proof.
  intros H. unfold combines. rewrite !rows_mk, !cols_mk. repeat (split; [reflexivity|]).
  unfold mk; cbn [elts]. assert (G : forall l, (forall q, In q l -> (q < r * w)%nat) ->
    map (fun k => z (k / w) (k mod w))%nat l =
    map (fun u => a * fst u + c * snd u) (combine (map (fun k => x (k / w) (k mod w))%nat l) (map (fun k => y (k / w) (k mod w))%nat l))).
  { induction l as [|q l IH]; intros Hl; [reflexivity|]. cbn [map combine fst snd]. f_equal.
    - assert (q < r * w)%nat by (apply Hl; left; auto). apply H; destruct (Nat.eq_dec w 0); try lia.
      + apply Nat.div_lt_upper_bound; lia.
      + apply Nat.mod_upper_bound; lia.
    - apply IH. intros. apply Hl. right; auto. }
  apply G. intros q Hq. apply in_seq in Hq. lia.
Qed.

Lemma padf_lin a c mx my mz : shaped p mx -> shaped p my -> combines a c mx my mz ->
  forall i j, padf p mz i j = a * padf p mx i j + c * padf p my i j.
Proof.
  intros (W1 & R1 & C1) (W2 & R2 & C2) (H1 & H2 & H3 & H4 & H5) i j. unfold padf, mel.
  rewrite H5, <- H2, H4, <- H2. rewrite nth_combine_lin; [reflexivity|]. unfold mwf in *. congruence.
Qed.

Lemma dec_lin a c mx my mz k sx sy sz : shaped p mx -> shaped p my -> shaped p mz -> combines a c mx my mz ->
  nth_error (dec_of p null_denoiser mx) k = Some sx -> nth_error (dec_of p null_denoiser my) k = Some sy ->
  nth_error (dec_of p null_denoiser mz) k = Some sz -> combines a c sx sy sz.
Proof.
  intros HX HY HZ HC Ex Ey Ez.
  pose proof (padf_lin a c mx my mz HX HY HC) as HP.
  assert (Hk : (k < gK g * gspw g + 1)%nat).
  { rewrite <- (dec_pure_length g null_denoiser (padf p mx)). apply nth_error_Some. unfold dec_of in Ex. fold g in Ex. congruence. }
  unfold dec_of in *. fold g in Ex, Ey, Ez.
  (* replace padf mz by the combination, on the whole plane *)
  assert (EZ : forall s, (s <= gK g)%nat -> forall i j, (i < hs g s)%nat -> (j < ws g s)%nat ->
      ap g (padf p mz) s i j = ap g (fun i j => a * padf p mx i j + c * padf p my i j) s i j).
  { induction s; intros Hs i j Hi Hj; [apply HP|].
    rewrite !(ana_glue g Gw) by (auto; lia). apply An_ext. intros. apply IHs; auto; lia. }
  destruct (Nat.eq_dec k (gK g * gspw g)) as [->|Hne].
  - rewrite !dec_pure_nth_approx in *. inversion Ex; inversion Ey; inversion Ez; subst.
    unfold apm. apply combines_mk. intros i j Hi Hj. rewrite EZ by auto. apply ap_lin; auto.
  - assert (Hsp : (0 < gspw g)%nat) by apply spw_pos.
    set (s := (k / gspw g)%nat). set (b := (k mod gspw g)%nat).
    assert (Ek : k = (s * gspw g + b)%nat) by (unfold s, b; rewrite Nat.mul_comm; apply Nat.div_mod; lia).
    assert (Hs : (s < gK g)%nat) by (unfold s; apply Nat.div_lt_upper_bound; lia).
    assert (Hb : (b < gspw g)%nat) by (unfold b; apply Nat.mod_upper_bound; lia).
    rewrite Ek in *. rewrite !dec_pure_nth_detail in * by auto.
    destruct (detf_some g (padf p mx) s b Hb) as (dx & Hdx).
    destruct (detf_some g (padf p my) s b Hb) as (dy & Hdy).
    destruct (detf_some g (padf p mz) s b Hb) as (dz & Hdz).
    destruct (detf_some g (fun i j => a * padf p mx i j + c * padf p my i j) s b Hb) as (dw & Hdw).
    rewrite Hdx in Ex. rewrite Hdy in Ey. rewrite Hdz in Ez. cbn [option_map] in *.
    rewrite null_apply in Ex, Ey, Ez by (intros; apply ws_1; auto).
    inversion Ex; inversion Ey; inversion Ez; subst sx sy sz.
    apply combines_mk. intros i j Hi Hj.
    transitivity (dw i j); [|apply (det_lin a c (padf p mx) (padf p my) s b dx dy dw); auto].
    rewrite (det_glue g Gw (padf p mz) s b i j dz) by auto.
    rewrite (det_glue g Gw (fun i j => a * padf p mx i j + c * padf p my i j) s b i j dw) by auto.
    apply An_ext. intros. apply EZ; auto; lia.
Qed.

Theorem linear b1 b2 b3 b1' b2' b3' a c dx dy dz :
  reachable p b1 -> reachable p b2 -> reachable p b3 -> (1 <= signum p)%Z ->
  Z.of_nat (length dx) = signum p -> Z.of_nat (length dy) = signum p -> Z.of_nat (length dz) = signum p ->
  Forall (shaped p) dx -> Forall (shaped p) dy -> Forall (shaped p) dz ->
  (forall i mx my mz, nth_error dx i = Some mx -> nth_error dy i = Some my -> nth_error dz i = Some mz ->
     combines a c mx my mz) ->
  decompose b1 dx null_denoiser = Ok (true, b1') ->
  decompose b2 dy null_denoiser = Ok (true, b2') ->
  decompose b3 dz null_denoiser = Ok (true, b3') ->
  forall i chx chy chz k sx sy sz,
    nth_error (bdec b1') i = Some chx -> nth_error (bdec b2') i = Some chy -> nth_error (bdec b3') i = Some chz ->
    nth_error chx k = Some sx -> nth_error chy k = Some sy -> nth_error chz k = Some sz ->
    combines a c sx sy sz.
Proof.
  intros R1 R2 R3 Hsig L1 L2 L3 S1 S2 S3 HC D1 D2 D3 i chx chy chz k sx sy sz E1 E2 E3 K1 K2 K3.
  rewrite dec_ok in D1, D2, D3 by auto. inversion D1; inversion D2; inversion D3; subst b1' b2' b3'; clear D1 D2 D3.
  cbn [bdec] in *. rewrite nth_error_map in E1, E2, E3.
  destruct (nth_error dx i) as [mx|] eqn:Ex; [|discriminate].
  destruct (nth_error dy i) as [my|] eqn:Ey; [|discriminate].
  destruct (nth_error dz i) as [mz|] eqn:Ez; [|discriminate].
  cbn [option_map] in *. inversion E1; inversion E2; inversion E3; subst.
  rewrite Forall_forall in *.
  eapply (dec_lin a c mx my mz k); eauto using nth_error_In.
Qed.
End X.
