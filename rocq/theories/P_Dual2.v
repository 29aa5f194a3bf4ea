(** * P_Dual2: decomposing what a composition made. *)
Require Import List Bool Arith ZArith QArith Qreals Lia Reals Lra Psatz.
Require Import ZifyBool.
Require Import Verif.M_Base Verif.M_Params Verif.M_Padding Verif.M_Wavelet Verif.M_Buffer Verif.M_Real.
Require Import Verif.S_Params Verif.S_Padding Verif.S_Buffer Verif.S_Exact Verif.S_Round Verif.S_Stable.
Require Import Verif.P_Base Verif.P_Wavelet Verif.P_Buffer Verif.P_Impl Verif.P_Api Verif.P_Api2.
Require Import Verif.P_Sum Verif.P_Lin Verif.P_PR Verif.P_L2 Verif.P_Rec Verif.P_Exact Verif.P_Rel Verif.P_Round Verif.P_Round2 Verif.P_Round3.
Require Import Verif.P_Stable Verif.P_Stable2 Verif.P_Dual.
Import ListNotations.
Open Scope R_scope.

Section Round.
Variables (u eta : R) (A : Arith R).
Hypothesis (HR : rounding u eta A) (Hu : 0 <= u) (Heta : 0 <= eta).
Section Geom.
Variable g : geom.
Hypothesis G : gwf g.
Notation t := (gt g).
Notation K := (gK g).
Notation N2 s := (nrm (hs g s) (ws g s)).
Notation apA := (@ap R A g).
Notation rcA := (@rc R A g).
Notation a := (stepg u g).
Notation kp := (kap u eta g).

Lemma Ans_minus s x y i j : Ans g s (fun i j => x i j - y i j) i j = Ans g s x i j - Ans g s y i j.
Proof.
  unfold Ans. rewrite (An_ext _ _ _ _ _ (fun i j => 1 * x i j + (-1) * y i j)) by (intros; ring). rewrite An_lin. ring.
Qed.

(** *** norms of what the composition passes through *)
Section Norms.
Variable ch : decomposition R.
Notation en := (moved A g [] ch).
Definition zz (it : nat) : nat -> nat -> R :=
  let s := (K - S it)%nat in
  joined (hs g (S s)) (ws g (S s)) (rcA ch it) (@chf R A ch (s * gspw g + 0)) (@chf R A ch (s * gspw g + 1)) (@chf R A ch (s * gspw g + 2)).

Lemma df_nil k i j : df A [] ch k i j = @chf R A ch k i j.
Proof.
  unfold df. unfold chf at 2. rewrite nth_overflow by (simpl; lia). unfold mel. cbn. 
  destruct (i * 0 + j)%nat; rewrite (rounding_zero _ _ _ HR); ring.
Qed.
Lemma zz_norm it : (it < K)%nat -> N2 (K - S it) (zz it) = sqrt (sq (N2 (K - it) (rcA ch it)) + dl2 A g [] ch (K - S it)).
Proof.
  intros Hit. replace (K - it)%nat with (S (K - S it)) by lia.
  rewrite <- (jd_norm A g G [] ch (K - S it) (rcA ch it)) by lia.
  apply nrm_ext. intros i j Hi Hj. unfold zz. cbv zeta. unfold joined. rewrite !df_nil. reflexivity.
Qed.
Lemma rc_zz it i j : (it < K)%nat -> (i < hs g (K - S it))%nat -> (j < ws g (K - S it))%nat ->
  rcA ch (S it) i j = @SYN R A g (K - S it) (zz it) i j.
Proof. intros Hit Hi Hj. cbn [rc]. rewrite (syn_join g G) by (auto; lia). reflexivity. Qed.
Lemma syn_nrm s z : (s < K)%nat -> N2 s (@SYN R A g s z) <= a * N2 s z + kp.
Proof.
  intros Hs. eapply Rle_trans; [apply (nrm_minus _ _ _ (Sys g s z))|].
  pose proof (syn_err u eta A HR Hu Heta g G s z Hs). pose proof (Sys_nrm g G s z Hs). lra.
Qed.
Lemma rc_norm it : (it <= K)%nat -> N2 (K - it) (rcA ch it) <= a ^ it * (sqrt (en it) + INR it * kp) /\
  ((it < K)%nat -> N2 (K - S it) (zz it) <= a ^ it * (sqrt (en (S it)) + INR it * kp)).
Proof.
  pose proof (stepg_1 u Hu g) as S1. pose proof (kap_0 u eta Hu Heta g) as K0.
  assert (Step : forall it, (it < K)%nat -> N2 (K - it) (rcA ch it) <= a ^ it * (sqrt (en it) + INR it * kp) ->
     N2 (K - S it) (zz it) <= a ^ it * (sqrt (en (S it)) + INR it * kp)).
  { clear it. intros it Hit H. rewrite zz_norm by auto. cbn [moved].
    set (d := dl2 A g [] ch (K - S it)). assert (Hd : 0 <= d) by apply dl2_pos.
    pose proof (moved_pos A g [] ch it) as Hm.
    assert (Q1 : 1 <= a ^ it) by (apply pow_R1_Rle; auto).
    pose proof (pos_INR it) as Hn. pose proof (sqrt_pos (en it)).
    eapply Rle_trans; [apply (hyp_mono _ (a ^ it * INR it * kp + a ^ it * sqrt (en it)))|].
    - split; [apply nrm_pos|]. lra.
    - eapply Rle_trans; [apply hyp_shift; auto|].
      + apply Rmult_le_pos; auto. apply Rmult_le_pos; lra.
      + apply Rmult_le_pos; lra.
      + pose proof (hyp_scale (a ^ it) (en it) d Q1 Hm Hd). lra. }
  induction it as [|it IH]; intros Hit.
  - assert (B : N2 (K - 0) (rcA ch 0) <= a ^ 0 * (sqrt (en 0) + INR 0 * kp)).
    { rewrite Nat.sub_0_r. cbn [rc moved]. simpl pow. simpl INR. rewrite (nrm_ext _ _ _ (df A [] ch (K * gspw g))).
      + apply Req_le. unfold nrm. ring.
      + intros. symmetry. apply df_nil. }
    split; auto.
  - destruct (IH ltac:(lia)) as [_ IHz]. specialize (IHz ltac:(lia)).
    assert (B : N2 (K - S it) (rcA ch (S it)) <= a ^ S it * (sqrt (en (S it)) + INR (S it) * kp)).
    { rewrite (nrm_ext _ _ _ (@SYN R A g (K - S it) (zz it))) by (intros; apply rc_zz; auto; lia).
      eapply Rle_trans; [apply syn_nrm; lia|]. cbn [pow]. rewrite S_INR.
      assert (a * N2 (K - S it) (zz it) <= a * (a ^ it * (sqrt (en (S it)) + INR it * kp))) by (apply Rmult_le_compat_l; lra).
      assert (1 <= a ^ it) by (apply pow_R1_Rle; auto).
      assert (kp <= a * a ^ it * kp) by (rewrite <- (Rmult_1_l kp) at 1; apply Rmult_le_compat_r; nra).
      lra. }
    split; auto.
Qed.
End Norms.

(** *** the decomposition of x, where x is what the composition of ch made *)
Variables (ch0 ch : decomposition R) (x : nat -> nat -> R).
Hypothesis H0 : holdsA A g ch0 x.
Hypothesis Hx : forall i j, (i < hs g 0)%nat -> (j < ws g 0)%nat -> x i j = rcA ch K i j.
Notation en := (moved A g [] ch).
Definition ee (s : nat) : R := N2 s (fun i j => rcA ch (K - s) i j - apA x s i j).

Lemma back_step s : (s < K)%nat ->
  sqrt (sq (ee (S s)) + dl2 A g ch0 ch s) <=
  a * ee s + (a * a - 1) * N2 s (zz ch (K - S s)) + (a + 1) * kp.
Proof.
  intros Hs. unfold ee at 1.
  rewrite <- (jd_norm A g G ch0 ch s) by auto.
  set (xs := apA x s). set (z := zz ch (K - S s)). set (r := rcA ch (K - s)).
  assert (Er : forall i j, (i < hs g s)%nat -> (j < ws g s)%nat -> r i j = @SYN R A g s z i j).
  { intros i j Hi Hj. unfold r. replace (K - s)%nat with (S (K - S s)) by lia.
    rewrite rc_zz by (try (replace (K - S (K - S s))%nat with s by lia); auto; lia).
    unfold z. replace (K - S (K - S s))%nat with s by lia. reflexivity. }
  rewrite (nrm_ext _ _ _ (fun i j => z i j - @ANA R A g s xs i j)).
  2:{ intros i j Hi Hj. unfold z, zz. cbv zeta. replace (K - S (K - S s))%nat with s by lia.
      rewrite (join_moved A g G ch0 ch x H0 s (rcA ch (K - S s)) i j) by auto. unfold xs. ring. }
  rewrite (nrm_ext _ _ _ (fun i j => (-1) * ((@ANA R A g s xs i j - Ans g s xs i j) + (Ans g s (fun i j => (-1) * (r i j - xs i j)) i j +
     (Ans g s (fun i j => @SYN R A g s z i j - Sys g s z i j) i j + (Ans g s (Sys g s z) i j - z i j)))))).
  2:{ intros i j Hi Hj.
      assert (E1 : Ans g s (fun i j => (-1) * (r i j - xs i j)) i j = Ans g s xs i j - Ans g s r i j).
      { rewrite <- Ans_minus. unfold Ans. apply An_ext. intros; ring. }
      assert (E2 : Ans g s r i j = Ans g s (@SYN R A g s z) i j) by (unfold Ans; apply An_ext; intros; auto).
      rewrite E1, E2, Ans_minus. ring. }
  rewrite nrm_scal. replace (Rabs (-1)) with 1 by (rewrite Rabs_left; lra). rewrite Rmult_1_l.
  eapply Rle_trans; [apply nrm_triang|].
  eapply Rle_trans; [apply Rplus_le_compat_l, nrm_triang|].
  eapply Rle_trans; [apply Rplus_le_compat_l, Rplus_le_compat_l, nrm_triang|].
  pose proof (ana_err u eta A HR Hu Heta g G s xs Hs) as B1.
  pose proof (Ans_nrm g G s (fun i j => (-1) * (r i j - xs i j)) Hs) as B2.
  rewrite nrm_scal in B2. replace (Rabs (-1)) with 1 in B2 by (rewrite Rabs_left; lra). rewrite Rmult_1_l in B2.
  change (N2 s (fun i j => r i j - xs i j)) with (ee s) in B2.
  pose proof (Ans_nrm g G s (fun i j => @SYN R A g s z i j - Sys g s z i j) Hs) as B3.
  pose proof (syn_err u eta A HR Hu Heta g G s z Hs) as B4.
  pose proof (AnSy_near g G s z Hs) as B5.
  assert (B6 : N2 s xs <= N2 s r + ee s).
  { eapply Rle_trans; [apply (nrm_minus _ _ _ r)|]. apply Rplus_le_compat_l.
    unfold ee. fold r. fold xs. rewrite (nrm_ext _ _ _ (fun i j => (-1) * (r i j - xs i j))) by (intros; ring).
    rewrite nrm_scal. replace (Rabs (-1)) with 1 by (rewrite Rabs_left; lra). lra. }
  assert (B7 : N2 s r <= a * N2 s z + kp).
  { rewrite (nrm_ext _ _ _ (@SYN R A g s z)) by auto. apply syn_nrm; auto. }
  pose proof (gain_1 g) as G1. pose proof (gain_stepg u Hu g) as GS. pose proof (kap_0 u eta Hu Heta g) as K0.
  set (X := N2 s xs) in *. set (Z := N2 s z) in *. set (E := ee s) in *. set (RR := N2 s r) in *.
  set (D := N2 s (fun i j => @SYN R A g s z i j - Sys g s z i j)) in *.
  assert (HZ : 0 <= Z) by apply nrm_pos.
  assert ((a - gain g) * X <= (a - gain g) * (a * Z + kp + E)) by (apply Rmult_le_compat_l; lra).
  assert (gain g * D <= gain g * ((a - gain g) * Z + kp)) by (apply Rmult_le_compat_l; lra).
  assert ((gain g - 1) * Z <= (gain g * gain g - 1) * Z) by (apply Rmult_le_compat_r; auto; nra).
  apply Rle_trans with ((a - gain g) * (a * Z + kp + E) + kp +
     (gain g * E + (gain g * ((a - gain g) * Z + kp) + (gain g * gain g - 1) * Z))); [lra|].
  apply Req_le. ring.
Qed.

Lemma en_mono it it' : (it <= it')%nat -> en it <= en it'.
Proof.
  induction 1; [apply Rle_refl|]. cbn [moved]. pose proof (dl2_pos A g [] ch (K - S m)). lra.
Qed.

Lemma back_err s : (s <= K)%nat ->
  sqrt (sq (ee s) + rsum s (dl2 A g ch0 ch)) <=
  (a ^ (2 * s) - 1) * (a ^ (K - s) * (sqrt (en K) + INR K * kp)) + 2 * INR s * a ^ s * kp.
Proof.
  pose proof (stepg_1 u Hu g) as S1. pose proof (kap_0 u eta Hu Heta g) as K0. induction s as [|s IH]; intros Hs.
  - cbn [rsum]. replace (ee 0) with 0.
    + unfold sq. rewrite Rmult_0_l, Rplus_0_r, sqrt_0. simpl. lra.
    + symmetry. unfold ee. apply nrm_zero. intros i j Hi Hj. rewrite Nat.sub_0_r. cbn [ap]. rewrite Hx by auto. ring.
  - specialize (IH ltac:(lia)). pose proof (back_step s ltac:(lia)) as ST.
    cbn [rsum]. set (E := ee s) in *. set (E1 := ee (S s)) in *. set (d := dl2 A g ch0 ch s) in *.
    set (V := rsum s (dl2 A g ch0 ch)) in *.
    assert (HV : 0 <= V) by (apply rsum_nonneg; intros; apply dl2_pos).
    assert (Hd : 0 <= d) by apply dl2_pos.
    assert (HE : 0 <= E) by apply nrm_pos. assert (HE1 : 0 <= E1) by apply nrm_pos.
    destruct (rc_norm ch (K - S s) ltac:(lia)) as [_ HZ]. specialize (HZ ltac:(lia)).
    replace (K - S (K - S s))%nat with s in HZ by lia.
    set (Z := N2 s (zz ch (K - S s))) in *. assert (HZ0 : 0 <= Z) by apply nrm_pos.
    set (C := sqrt (en K) + INR K * kp).
    assert (HC : sqrt (en (S (K - S s))) + INR (K - S s) * kp <= C).
    { unfold C. apply Rplus_le_compat.
      - apply sqrt_le_1_alt, en_mono. lia.
      - apply Rmult_le_compat_r; auto. apply le_INR. lia. }
    fold C in IH.
    assert (P1 : 1 <= a ^ (K - S s)) by (apply pow_R1_Rle; auto).
    assert (HZ' : Z <= a ^ (K - S s) * C) by (eapply Rle_trans; [exact HZ|]; apply Rmult_le_compat_l; lra).
    replace (sq E1 + (V + d)) with (sq (sqrt (sq E1 + d)) + V).
    2:{ unfold sq at 1. rewrite sqrt_sqrt by (pose proof (sq_pos E1); lra). ring. }
    set (q := sqrt (sq E1 + d)) in *.
    assert (Hq : 0 <= q) by apply sqrt_pos.
    set (c := (a * a - 1) * Z + (a + 1) * kp).
    assert (Hc : 0 <= c).
    { unfold c. apply Rplus_le_le_0_compat; apply Rmult_le_pos; auto; nra. }
    assert (HF : sqrt (sq q + V) <= c + a * sqrt (sq E + V)).
    { eapply Rle_trans; [apply (hyp_mono q (c + a * E)); split; auto; unfold c; lra|].
      eapply Rle_trans; [apply hyp_shift; auto; apply Rmult_le_pos; lra|].
      apply Rplus_le_compat_l. pose proof (hyp_scale a (sq E) V S1 (sq_pos E) HV) as HS.
      unfold sq at 2 in HS. rewrite sqrt_square in HS by auto. exact HS. }
    eapply Rle_trans; [exact HF|].
    replace (2 * S s)%nat with (S (S (2 * s))) by lia. cbn [pow]. rewrite S_INR.
    replace (K - s)%nat with (S (K - S s)) in IH by lia. cbn [pow] in IH.
    assert (P2 : 1 <= a ^ s) by (apply pow_R1_Rle; auto).
    set (P := a ^ (2 * s)) in *. set (Q := a ^ (K - S s)) in *. set (n := INR s) in *. set (Ps := a ^ s) in *.
    assert (Hn : 0 <= n) by apply pos_INR.
    assert (HaF : a * sqrt (sq E + V) <= a * ((P - 1) * (a * Q * C) + 2 * n * Ps * kp)) by (apply Rmult_le_compat_l; lra).
    assert (HZ2 : (a * a - 1) * Z <= (a * a - 1) * (Q * C)) by (apply Rmult_le_compat_l; auto; nra).
    assert ((a + 1) * kp <= 2 * (a * Ps) * kp) by (apply Rmult_le_compat_r; auto; nra).
    unfold c. apply Rle_trans with ((a * a - 1) * (Q * C) + 2 * (a * Ps) * kp + a * ((P - 1) * (a * Q * C) + 2 * n * Ps * kp)); [lra|].
    apply Req_le. ring.
Qed.

Lemma back_all : sqrt (moved A g ch0 ch K) <= (a ^ (2 * K) - 1) * sqrt (en K) + 2 * INR K * a ^ (2 * K) * kp.
Proof.
  pose proof (stepg_1 u Hu g) as S1. pose proof (kap_0 u eta Hu Heta g) as K0.
  assert (E : moved A g ch0 ch K = sq (ee K) + rsum K (dl2 A g ch0 ch)).
  { assert (Q : forall it, (it <= K)%nat -> moved A g ch0 ch it = rsum it (fun i => dl2 A g ch0 ch (K - S i)) + moved A g ch0 ch 0).
    { induction it; intros Hit; [simpl; ring|]. cbn [moved rsum] in *. rewrite IHit by lia. ring. }
    rewrite Q by lia. rewrite (rsum_rev K).
    rewrite (rsum_ext K _ (dl2 A g ch0 ch)) by (intros; f_equal; lia).
    rewrite Rplus_comm. f_equal. unfold ee. rewrite nrm_sq, Nat.sub_diag. cbn [moved rc]. apply rsum2_ext. intros i j Hi Hj.
    unfold df. destruct H0 as [_ HD]. rewrite HD by auto. reflexivity. }
  rewrite E. eapply Rle_trans; [apply back_err; lia|]. rewrite Nat.sub_diag. simpl (a ^ 0). rewrite Rmult_1_l.
  replace (a ^ (2 * K)) with (a ^ K * a ^ K) by (rewrite <- pow_add; f_equal; lia).
  assert (P1 : 1 <= a ^ K) by (apply pow_R1_Rle; auto). pose proof (pos_INR K) as Hn.
  set (P := a ^ K) in *. set (n := INR K) in *.
  assert (HH : 0 <= (P - 1) * (P - 1) * (n * kp)) by (apply Rmult_le_pos; [apply Rle_0_sqr|apply Rmult_le_pos; auto]).
  lra.
Qed.
End Geom.

Lemma energy_sized r c (m : mat R) : sized r c m -> energy m = rsum2 r c (fun i j => sq (mel 0 m i j)).
Proof.
  intros (W & Er & Ec). unfold mwf in *.
  assert (E : forall l, fold_right (fun x s => x * x + s) 0 l = rsum (length l) (fun k => sq (nth k l 0))).
  { induction l; [reflexivity|]. cbn [fold_right length]. rewrite rsum_S. cbn [nth]. rewrite <- IHl. reflexivity. }
  unfold energy. rewrite E, W, Er, Ec. destruct c as [|c].
  - rewrite Nat.mul_0_r, rsum2_w0. reflexivity.
  - rewrite rsum2_flat by lia. apply rsum_ext. intros k Hk. unfold mel. rewrite Ec.
    rewrite (Nat.mul_comm (k / S c)), <- Nat.div_mod by lia. reflexivity.
Qed.
Lemma moved_energy g (ch : decomposition R) : layout g ch -> moved A g [] ch (gK g) = channel_energy ch.
Proof.
  intros L. rewrite moved_all.
  assert (E0 : length ch = (gK g * gspw g + 1)%nat) by apply L.
  assert (Q : forall l : list (mat R), channel_energy l = rsum (length l) (fun k => energy (nth k l mempty))).
  { induction l; [reflexivity|]. cbn [channel_energy fold_right length]. rewrite rsum_S. cbn [nth].
    f_equal. exact IHl. }
  rewrite Q, E0, rsum_split. cbn [rsum]. rewrite Rplus_0_l, Nat.add_0_r.
  assert (Z : a0 = 0) by exact (rounding_zero _ _ _ HR).
  f_equal.
  - apply rsum_ext. intros k Hk. rewrite (energy_sized _ _ _ (lay_nth g ch k L Hk)). apply rsum2_ext. intros.
    rewrite df_nil. unfold chf. rewrite Z. reflexivity.
  - rewrite (energy_sized _ _ _ (lay_last g ch L)). apply rsum2_ext. intros. rewrite df_nil. unfold chf. rewrite Z. reflexivity.
Qed.

Variable p : params.
Hypothesis HA : accepted p.
Notation g := (geom_of p).
Hypothesis (Hrows : level_rows p 0 = drows p) (Hcols : level_cols p 0 = dcols p).

Lemma whole ch i j : (i < hs g 0)%nat -> (j < ws g 0)%nat ->
  @padf p R A (@com_of p R A 0 ch) i j = @rc R A g ch (gK g) i j.
Proof.
  intros Hi Hj. unfold padf, com_of, scalem. cbn [Nat.ltb Nat.leb]. rewrite Nat.sub_0_r.
  rewrite (cropfA p HA), crows_0, ccols_0. unfold offk_r, offk_c. rewrite crows_0, ccols_0, Hrows, Hcols, !Nat.sub_diag.
  rewrite (hs_level p HA), Hrows in Hi. rewrite (ws_level p HA), Hcols in Hj.
  replace (gh g) with (drows p) by (rewrite <- Hrows, <- (hs_level p HA), hs_0; auto; apply geom_wf; auto).
  replace (gw g) with (dcols p) by (rewrite <- Hcols, <- (ws_level p HA), ws_0; auto; apply geom_wf; auto).
  rewrite !Nat.sub_diag. change (0 / 2)%nat with 0%nat. rewrite !Nat.sub_0_r, !Nat.min_l by lia.
  rewrite mel_mk by auto. reflexivity.
Qed.

Lemma dec_back ch : has_layout p ch ->
  sqrt (distance2 (@dec_of p R A null_denoiser (@com_of p R A 0 ch)) ch) <=
  float_rel u p * sqrt (channel_energy ch) + underflow u eta p.
Proof.
  intros HL. assert (L : layout g ch) by (apply (layout_iff p HA); auto).
  rewrite <- (moved_energy g ch L).
  rewrite <- (moved_distance u eta A HR g); auto.
  2:{ apply (layout_iff p HA). apply dec_of_layout; auto. apply null_keepsA. }
  rewrite (underflow_kap u eta p HA). unfold float_rel. rewrite <- (stepg_gain u p HA), <- (K_nsteps p HA).
  apply (back_all g (geom_wf p HA) _ ch (@padf p R A (@com_of p R A 0 ch))).
  - apply dec_holdsA.
  - intros i j Hi Hj. apply whole; auto.
Qed.

Theorem compose_decompose b (chs : list (decomposition R)) : @reachable R A p b ->
  (1 <= signum p)%Z -> Z.of_nat (length chs) = signum p -> Forall (has_layout p) chs ->
  exists out b', @compose R A (Buffer p chs) 0 = Ok (true, out) /\
    @decompose R A b out null_denoiser = Ok (true, b') /\ length (bdec b') = length chs /\
    forall c ch ch', nth_error chs c = Some ch -> nth_error (bdec b') c = Some ch' ->
      has_layout p ch' /\
      sqrt (distance2 ch' ch) <= float_rel u p * sqrt (channel_energy ch) + underflow u eta p.
Proof.
  intros Hr Hsig HL HLay. eexists _, _.
  split.
  { apply (compose_ok p HA); cbn [bpar bdec]; auto.
    - apply Forall_forall. auto.
    - pose proof (acc_steps p HA). lia. }
  cbn [bdec].
  split.
  { apply (@dec_okA R A p HA b); auto.
    - rewrite map_length. auto.
    - apply Forall_forall. intros m Hin. apply in_map_iff in Hin as (ch & <- & _). apply com_sized0; auto. }
  cbn [bdec]. rewrite !map_length. split; auto. intros c ch ch' Hc Hc'.
  rewrite !nth_error_map, Hc in Hc'. inversion Hc'; subst ch'; clear Hc'.
  split; [apply dec_of_layout; auto; apply null_keepsA|]. apply dec_back.
  rewrite Forall_forall in HLay; apply HLay; eapply nth_error_In; eauto.
Qed.
End Round.
