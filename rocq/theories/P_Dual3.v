(** * P_Dual3: exact arithmetic: distances of signals and of their decompositions. *)
Require Import List Bool Arith ZArith QArith Qreals Lia Reals Lra Psatz.
Require Import ZifyBool.
Require Import Verif.M_Base Verif.M_Params Verif.M_Padding Verif.M_Wavelet Verif.M_Buffer Verif.M_Real Verif.M_Denoise.
Require Import Verif.S_Params Verif.S_Padding Verif.S_Buffer Verif.S_Exact Verif.S_Round Verif.S_Stable Verif.S_Denoise.
Require Import Verif.P_Base Verif.P_Wavelet Verif.P_Buffer Verif.P_Impl Verif.P_Api Verif.P_Api2 Verif.P_Denoise.
Require Import Verif.P_Sum Verif.P_Lin Verif.P_PR Verif.P_L2 Verif.P_Rec Verif.P_Exact Verif.P_Rel Verif.P_Round Verif.P_Round2 Verif.P_Round3.
Require Import Verif.P_Stable Verif.P_Stable2 Verif.P_Dual Verif.P_Dual2.
Import ListNotations.
Open Scope R_scope.

Section Geom.
Variable g : geom.
Hypothesis G : gwf g.
Notation K := (gK g).
Notation N2 s := (nrm (hs g s) (ws g s)).

Lemma stepg_exact : stepg 0 g = gain g.
Proof.
  rewrite gain_b1. unfold stepg, d1, gam. f_equal. rewrite Rplus_0_r, !pow1. ring.
Qed.
Lemma kap_exact : kap 0 0 g = 0.
Proof. unfold kap, kap1, nu. ring. Qed.
Lemma ANA_exact s y i j : (s < K)%nat -> (i < hs g s)%nat -> (j < ws g s)%nat ->
  @ANA R exactR g s y i j = Ans g s y i j.
Proof.
  intros Hs Hi Hj. pose proof (ana_err 0 0 exactR exact_rounding (Rle_refl 0) (Rle_refl 0) g G s y Hs) as H.
  rewrite stepg_exact, kap_exact in H.
  assert (N : N2 s (fun i j => @ANA R exactR g s y i j - Ans g s y i j) = 0).
  { apply Rle_antisym; [|apply nrm_pos]. lra. }
  pose proof (nrm_zero_inv _ _ _ N i j Hi Hj) as E. simpl in E. lra.
Qed.

Variables (ch0 ch : decomposition R) (x y : nat -> nat -> R).
Hypothesis (H0 : holdsA exactR g ch0 x) (H1 : holdsA exactR g ch y).
Definition ae (s : nat) : R := N2 s (fun i j => ap g y s i j - ap g x s i j).

Lemma lip_step s : (s < K)%nat -> sqrt (sq (ae (S s)) + dl2 exactR g ch0 ch s) <= gain g * ae s.
Proof.
  intros Hs. unfold ae at 1. rewrite <- (jd_norm exactR g G ch0 ch s) by auto.
  rewrite (nrm_ext _ _ _ (fun i j => Ans g s (fun i j => ap g y s i j - ap g x s i j) i j)).
  - apply Ans_nrm; auto.
  - intros i j Hi Hj. rewrite Ans_minus, <- !ANA_exact by auto.
    pose proof (join_moved exactR g G ch0 ch x H0 s (ap g y (S s)) i j Hs Hi Hj) as E.
    pose proof (joinA exactR g G ch y s (ap g y (S s)) i j H1 Hs Hi Hj) as E'.
    assert (Z : joined (hs g (S s)) (ws g (S s)) (fun i j => ap g y (S s) i j - ap g y (S s) i j) (fun _ _ => 0) (fun _ _ => 0) (fun _ _ => 0) i j = 0).
    { unfold joined. destruct (Nat.ltb j (ws g (S s))), (Nat.ltb i (hs g (S s))); ring. }
    rewrite Z in E'. rewrite E' in E. lra.
Qed.

Lemma lip_err s : (s <= K)%nat -> sqrt (sq (ae s) + rsum s (dl2 exactR g ch0 ch)) <= gain g ^ s * ae 0.
Proof.
  pose proof (gain_1 g) as S1. induction s as [|s IH]; intros Hs.
  - cbn [rsum]. rewrite Rplus_0_r. unfold sq. rewrite sqrt_square by apply nrm_pos. simpl. lra.
  - specialize (IH ltac:(lia)). pose proof (lip_step s ltac:(lia)) as ST.
    cbn [rsum pow]. set (E := ae s) in *. set (E1 := ae (S s)) in *. set (d := dl2 exactR g ch0 ch s) in *.
    set (V := rsum s (dl2 exactR g ch0 ch)) in *.
    assert (HV : 0 <= V) by (apply rsum_nonneg; intros; apply dl2_pos).
    assert (Hd : 0 <= d) by apply dl2_pos.
    assert (HE : 0 <= E) by apply nrm_pos.
    replace (sq E1 + (V + d)) with (sq (sqrt (sq E1 + d)) + V).
    2:{ unfold sq at 1. rewrite sqrt_sqrt by (pose proof (sq_pos E1); lra). ring. }
    set (q := sqrt (sq E1 + d)) in *.
    assert (Hq : 0 <= q) by apply sqrt_pos.
    eapply Rle_trans; [apply (hyp_mono q (gain g * E)); split; auto|].
    eapply Rle_trans.
    + pose proof (hyp_scale (gain g) (sq E) V S1 (sq_pos E) HV) as HS.
      unfold sq at 2 in HS. rewrite sqrt_square in HS by auto. exact HS.
    + rewrite Rmult_assoc. apply Rmult_le_compat_l; lra.
Qed.
Lemma lip_all : sqrt (moved exactR g ch0 ch K) <= gain g ^ K * ae 0.
Proof.
  assert (E : moved exactR g ch0 ch K = sq (ae K) + rsum K (dl2 exactR g ch0 ch)).
  { assert (Q : forall it, (it <= K)%nat -> moved exactR g ch0 ch it = rsum it (fun i => dl2 exactR g ch0 ch (K - S i)) + moved exactR g ch0 ch 0).
    { induction it; intros Hit; [simpl; ring|]. cbn [moved rsum] in *. rewrite IHit by lia. ring. }
    rewrite Q by lia. rewrite (rsum_rev K).
    rewrite (rsum_ext K _ (dl2 exactR g ch0 ch)) by (intros; f_equal; lia).
    rewrite Rplus_comm. f_equal. unfold ae. rewrite nrm_sq. cbn [moved]. apply rsum2_ext. intros i j Hi Hj.
    unfold df. destruct H0 as [_ HD], H1 as [_ HD1]. rewrite HD, HD1 by auto. reflexivity. }
  rewrite E. apply lip_err. lia.
Qed.
End Geom.

Section Api.
Variable p : params.
Hypothesis HA : accepted p.
Notation g := (geom_of p).

Lemma gain_pow : gain g ^ gK g = gain_exact p.
Proof.
  rewrite <- stepg_exact, (stepg_gain 0 p HA), (K_nsteps p HA). apply step_gain_0.
Qed.

Lemma dec_lip m m' : shaped p m -> shaped p m' ->
  sqrt (distance2 (dec_of p null_denoiser m) (dec_of p null_denoiser m')) <= gain_exact p * padded_error p m' m.
Proof.
  intros (_ & _ & Cm) (_ & _ & Cm').
  rewrite <- (moved_distance 0 0 exactR exact_rounding g);
    try (apply (layout_iff p HA); apply dec_of_layout; auto; apply null_keepsA).
  rewrite <- gain_pow.
  eapply Rle_trans; [apply (lip_all g (geom_wf p HA) _ _ (padf p m) (padf p m')); apply dec_holdsA|].
  apply Req_le. f_equal. unfold ae, padded_error, nrm. f_equal. rewrite (hs_level p HA), (ws_level p HA).
  apply rsum_ext. intros i Hi. apply rsum_ext. intros j Hj. cbn [ap].
  rewrite !(padf_padded p HA) by auto. reflexivity.
Qed.

Theorem decompose_stable b1 b2 data data' : reachable p b1 -> reachable p b2 ->
  (1 <= signum p)%Z -> Z.of_nat (length data) = signum p -> Z.of_nat (length data') = signum p ->
  Forall (shaped p) data -> Forall (shaped p) data' ->
  exists b1' b2', decompose b1 data null_denoiser = Ok (true, b1') /\ decompose b2 data' null_denoiser = Ok (true, b2') /\
    forall c m m' ch ch', nth_error data c = Some m -> nth_error data' c = Some m' ->
      nth_error (bdec b1') c = Some ch -> nth_error (bdec b2') c = Some ch' ->
      sqrt (distance2 ch ch') <= gain_exact p * padded_error p m' m.
Proof.
  intros Hr1 Hr2 Hsig HL HL' HS HS'. eexists _, _. split; [apply (dec_okA p HA b1 data); auto|].
  split; [apply (dec_okA p HA b2 data'); auto|]. cbn [bdec].
  intros c m m' ch ch' Hm Hm' Hc Hc'.
  rewrite nth_error_map, Hm in Hc. inversion Hc; subst ch; clear Hc.
  rewrite nth_error_map, Hm' in Hc'. inversion Hc'; subst ch'; clear Hc'.
  apply dec_lip; rewrite Forall_forall in *; eauto using nth_error_In.
Qed.

(** ** equal when at distance 0 *)
Lemma gap_0 l l' : length l = length l' -> gap l l' = 0 -> l = l'.
Proof.
  revert l'. induction l as [|x l IH]; intros [|y l'] HL H; try discriminate; auto. cbn [gap] in H.
  pose proof (gap_nonneg l l'). pose proof (Rle_0_sqr (y - x)). unfold Rsqr in *.
  assert (E : (y - x) * (y - x) = 0) by lra. apply Rsqr_0_uniq in E. f_equal; [lra|].
  apply IH; [simpl in HL; lia|lra].
Qed.
Lemma lay_all (ch : decomposition R) k m : layout g ch -> nth_error ch k = Some m ->
  sized (if Nat.ltb k (gK g * gspw g) then hs g (S (k / gspw g)) else hs g (gK g))
        (if Nat.ltb k (gK g * gspw g) then ws g (S (k / gspw g)) else ws g (gK g)) m.
Proof.
  intros L Hk. assert (k < length ch)%nat by (apply nth_error_Some; congruence).
  assert (E0 : length ch = (gK g * gspw g + 1)%nat) by apply L.
  destruct (Nat.ltb_spec k (gK g * gspw g)) as [Hlt|Hge].
  - pose proof (lay_nth g ch k L Hlt) as H'. rewrite (nth_error_nth _ _ mempty Hk) in H'. exact H'.
  - pose proof (lay_last g ch L) as H'. assert (Ek : k = (gK g * gspw g)%nat) by lia. rewrite Ek in Hk.
    rewrite (nth_error_nth _ _ mempty Hk) in H'. exact H'.
Qed.
Lemma distance_0 (ch ch' : decomposition R) : has_layout p ch -> has_layout p ch' -> distance2 ch ch' = 0 -> ch = ch'.
Proof.
  intros H H' D. apply (layout_iff p HA) in H, H'.
  apply nth_error_ext_eq; [destruct H as [H _], H' as [H' _]; congruence|].
  assert (Q : forall (l l' : list (mat R)), distance2 l l' = 0 -> forall k m m', nth_error l k = Some m -> nth_error l' k = Some m' ->
     gap (elts m) (elts m') = 0).
  { induction l as [|x l IH]; intros [|y l'] E [|k] m m' E1 E2; try discriminate; cbn [distance2 nth_error] in *;
      pose proof (gap_nonneg (elts x) (elts y)); pose proof (distance2_nonneg l l').
    - inversion E1; inversion E2; subst. lra.
    - apply (IH l' ltac:(lra) k); auto. }
  intros k m m' Hm Hm'. pose proof (Q _ _ D k m m' Hm Hm') as E.
  destruct (lay_all ch k m H Hm) as (W & R1 & C1). destruct (lay_all ch' k m' H' Hm') as (W' & R1' & C1').
  destruct m as [r c l], m' as [r' c' l']; unfold mwf in *; cbn [rows cols elts] in *. subst.
  f_equal. apply gap_0; auto. congruence.
Qed.

Theorem compose_decompose_db1 b (chs : list (decomposition R)) :
  level_rows p 0 = drows p -> level_cols p 0 = dcols p -> wtype p = 1%Z -> reachable p b ->
  (1 <= signum p)%Z -> Z.of_nat (length chs) = signum p -> Forall (has_layout p) chs ->
  exists out, compose (Buffer p chs) 0 = Ok (true, out) /\
    decompose b out null_denoiser = Ok (true, Buffer p chs).
Proof.
  intros Er Ec Et Hr Hsig HL HLay.
  assert (D : forall ch, has_layout p ch -> dec_of p null_denoiser (com_of p 0 ch) = ch).
  { intros ch Hl. apply distance_0; auto; [apply dec_of_layout; auto; apply null_keepsA|].
    pose proof (dec_back 0 0 exactR exact_rounding (Rle_refl 0) (Rle_refl 0) p HA Er Ec ch Hl) as H.
    rewrite float_rel_0, underflow_0, rel_err_db1, Rmult_0_l, Rplus_0_r in H by auto.
    apply sqrt_eq_0; [apply distance2_nonneg|]. apply Rle_antisym; auto. apply sqrt_pos. }
  eexists. split.
  { apply (compose_ok p HA); cbn [bpar bdec]; auto.
    - apply Forall_forall. auto.
    - pose proof (acc_steps p HA). lia. }
  cbn [bdec]. rewrite (dec_okA p HA b); auto.
  - rewrite map_map. do 2 f_equal. f_equal. rewrite <- (map_id chs) at 2. apply map_ext_in. intros ch Hin.
    apply D. rewrite Forall_forall in HLay. auto.
  - rewrite map_length. auto.
  - apply Forall_forall. intros m Hin. apply in_map_iff in Hin as (ch & <- & _). apply (com_sized0 exactR p HA).
Qed.

(** ** DB1, nothing padded: the same distance on both sides *)
Lemma nearest_id n i : (i < n)%nat -> nearest n (Z.of_nat i - 0) = i.
Proof. intros H. unfold nearest. lia. Qed.
Lemma padded_error_whole m m' : level_rows p 0 = drows p -> level_cols p 0 = dcols p ->
  padded_error p m' m = error p m' m.
Proof.
  intros Er Ec. unfold padded_error, error. f_equal. rewrite Er, Ec, !total_rsum. apply rsum_ext. intros i Hi.
  rewrite !total_rsum. apply rsum_ext. intros j Hj. unfold padded_at. rewrite Er, Ec. unfold offset. rewrite !Nat.sub_diag.
  change (Z.of_nat (0 / 2)) with 0%Z. rewrite !nearest_id by auto. reflexivity.
Qed.
Theorem isometry m ch : level_rows p 0 = drows p -> level_cols p 0 = dcols p -> wtype p = 1%Z ->
  shaped p m -> has_layout p ch ->
  error p (com_of p 0 ch) m = sqrt (distance2 (dec_of p null_denoiser m) ch).
Proof.
  intros Er Ec Et Hm Hl. apply Rle_antisym.
  - pose proof (com_moved 0 0 exactR exact_rounding (Rle_refl 0) (Rle_refl 0) p HA m ch Hm Hl) as H.
    rewrite float_rel_0, underflow_0, rel_err_db1, step_gain_0 in H by auto.
    fold (gain_exact p) in H. rewrite gain_exact_db1 in H by auto. lra.
  - pose proof (dec_lip m (com_of p 0 ch) Hm (com_sized0 exactR p HA ch)) as H.
    rewrite gain_exact_db1, padded_error_whole in H by auto.
    replace (dec_of p null_denoiser (com_of p 0 ch)) with ch in H; [lra|].
    symmetry. apply distance_0; auto; [apply dec_of_layout; auto; apply null_keepsA|].
    pose proof (dec_back 0 0 exactR exact_rounding (Rle_refl 0) (Rle_refl 0) p HA Er Ec ch Hl) as H'.
    rewrite float_rel_0, underflow_0, rel_err_db1, Rmult_0_l, Rplus_0_r in H' by auto.
    apply sqrt_eq_0; [apply distance2_nonneg|]. apply Rle_antisym; auto. apply sqrt_pos.
Qed.
End Api.

(** ** the threshold denoiser *)
Lemma nth_split p k : accepted p -> (k < nsteps p * bands p)%nat ->
  exists s i, k = (s * bands p + i)%nat /\ (s < nsteps p)%nat /\ (i < bands p)%nat.
Proof.
  intros HA Hk. assert (0 < bands p)%nat by (unfold bands; destruct (is_1d p); lia).
  exists (k / bands p)%nat, (k mod bands p)%nat. split; [rewrite Nat.mul_comm; apply Nat.div_mod; lia|].
  split; [apply Nat.div_lt_upper_bound; lia|apply Nat.mod_upper_bound; lia].
Qed.
Theorem threshold_error p b data ta tb T : accepted p -> reachable p b -> 0 <= T ->
  (forall s, (s < nsteps p)%nat -> ta * INR s + tb <= T) ->
  (1 <= signum p)%Z -> Z.of_nat (length data) = signum p -> Forall (shaped p) data ->
  exists b0 b1 out, decompose b data null_denoiser = Ok (true, b0) /\
    decompose b data (threshold_denoiser ta tb) = Ok (true, b1) /\
    compose b1 0 = Ok (true, out) /\ length out = length data /\
    forall c m ch0 ch1 o, nth_error data c = Some m -> nth_error (bdec b0) c = Some ch0 -> nth_error (bdec b1) c = Some ch1 ->
      nth_error out c = Some o ->
      sized (drows p) (dcols p) o /\
      error p o m <= rel_err p * sqrt (padded_energy p m) + gain_exact p * (T * sqrt (INR (changes ch0 ch1))).
Proof.
  intros HA Hr HT Hthr Hsig HL HS.
  destruct (denoised_compose 0 0 exactR exact_rounding (Rle_refl 0) (Rle_refl 0) p HA b data (threshold_denoiser ta tb))
    as (b0 & b1 & out & E0 & E1 & Ec & Hlen & Hall); auto. { apply threshold_keeps. }
  destruct (threshold_in_decompose p b b data ta tb HA Hr Hsig HL HS) as (b1' & b0' & F1 & F0 & HD).
  rewrite E1 in F1. rewrite E0 in F0. inversion F1; inversion F0; subst b1' b0'. clear F1 F0.
  exists b0, b1, out. repeat split; auto; edestruct Hall as [Hsz Herr]; eauto; try apply Hsz.
  rewrite float_rel_0, underflow_0, step_gain_0, Rplus_0_r in Herr. fold (gain_exact p) in Herr.
  eapply Rle_trans; [exact Herr|]. apply Rplus_le_compat_l. apply Rmult_le_compat_l.
  { pose proof (gain_exact_1 p). lra. }
  apply root_within; auto. destruct (HD c ch1 ch0) as [HDa HDd]; auto.
  intros k d0 d1 Hk0 Hk1 i x y Hx Hy.
  assert (Hlk : has_layout p ch0).
  { pose proof (@dec_okA R exactR p HA b data Hr Hsig HL HS) as F. rewrite E0 in F. inversion F; subst b0.
    cbn [bdec] in H0. rewrite nth_error_map, H in H0. inversion H0; subst ch0. apply dec_of_layout; auto. apply null_keepsA. }
  assert (Hk : (k < nsteps p * bands p + 1)%nat).
  { destruct Hlk as [Hlk _]. rewrite <- Hlk. apply nth_error_Some. congruence. }
  destruct (Nat.eq_dec k (nsteps p * bands p)) as [->|Hne].
  - rewrite HDa, Hk0 in Hk1. inversion Hk1; subst d1. rewrite Hx in Hy. inversion Hy; subst y.
    replace (x - x) with 0 by ring. rewrite Rabs_R0. auto.
  - destruct (nth_split p k HA ltac:(lia)) as (s & ib & -> & Hs & Hib).
    pose proof (HDd s ib d1 d0 Hs Hib Hk1 Hk0) as E. rewrite E, nth_error_map, Hx in Hy. cbn [option_map] in Hy.
    inversion Hy; subst y. unfold get_threshold. cbn [mgt mabs mnat aadd amul a0 realMag exactR].
    destruct (Rlt_dec (ta * INR s + tb) (Rabs x)) as [Hlt|Hge].
    + replace (x - x) with 0 by ring. rewrite Rabs_R0. auto.
    + replace (0 - x) with (- x) by ring. rewrite Rabs_Ropp. specialize (Hthr s Hs). lra.
Qed.

Theorem isometry_api p (b : buffer R) data (chs : list (decomposition R)) :
  accepted p -> level_rows p 0 = drows p -> level_cols p 0 = dcols p -> wtype p = 1%Z -> reachable p b ->
  (1 <= signum p)%Z -> Z.of_nat (length data) = signum p -> Forall (shaped p) data ->
  length chs = length data -> Forall (has_layout p) chs ->
  exists b0 out, decompose b data null_denoiser = Ok (true, b0) /\
    compose (Buffer p chs) 0 = Ok (true, out) /\ length out = length data /\
    forall c m ch0 ch o, nth_error data c = Some m -> nth_error (bdec b0) c = Some ch0 -> nth_error chs c = Some ch ->
      nth_error out c = Some o -> error p o m = sqrt (distance2 ch0 ch).
Proof.
  intros HA Er Ec Et Hr Hsig HL HS HLc HLay. eexists _, _. split; [apply (dec_okA p HA b data); auto|].
  split.
  { apply (compose_ok p HA); cbn [bpar bdec].
    - reflexivity.
    - exact (eq_trans (f_equal Z.of_nat HLc) HL).
    - apply Forall_forall. auto.
    - pose proof (acc_steps p HA). lia. }
  cbn [bdec]. split; [rewrite map_length; auto|]. intros c m ch0 ch o Hm Hc0 Hc Ho.
  pose proof (nth_error_In _ _ Hm) as Im. pose proof (nth_error_In _ _ Hc) as Ich. rewrite Forall_forall in HS, HLay.
  rewrite nth_error_map in Ho. setoid_rewrite Hc in Ho. inversion Ho; subst o; clear Ho.
  rewrite nth_error_map, Hm in Hc0. inversion Hc0; subst ch0; clear Hc0.
  apply (isometry p HA); auto.
Qed.
