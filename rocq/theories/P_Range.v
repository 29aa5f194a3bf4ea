(** * P_Range: GetValueRange *)
Require Import List Bool Arith ZArith QArith Qreals Lia Reals Lra.
Require Import ZifyBool.
Require Import Verif.M_Base Verif.M_Params Verif.M_Padding Verif.M_Buffer Verif.M_Real Verif.M_Metrics.
Require Import Verif.S_Params Verif.S_Buffer Verif.S_Exact Verif.S_Metrics.
Require Import Verif.P_Base Verif.P_Wavelet Verif.P_Buffer Verif.P_Impl Verif.P_Api Verif.P_Api2.
Require Import Verif.P_Sum Verif.P_Lin Verif.P_PR Verif.P_L2 Verif.P_Rec Verif.P_Exact Verif.P_Metrics.
Import ListNotations.
Open Scope R_scope.

Lemma pow_le_pow a b n : 0 <= a <= b -> a ^ n <= b ^ n.
Proof. intros. apply pow_incr. auto. Qed.

Section R.
Variable p : params.
Hypothesis HA : accepted p.
Let g := geom_of p.
Let Gw : gwf g := geom_wf p HA.

Lemma range_value (b : buffer R) k ch0 : bpar b = p -> nth_error (bdec b) 0 = Some ch0 ->
  length ch0 = (nsteps p * bands p + 1)%nat -> (1 <= nsteps p <= 62)%nat -> (k <= nsteps p * bands p)%nat ->
  get_value_range b k =
    Ok (if (k =? nsteps p * bands p)%nat then (Num 0, Num (2 * 2 ^ (nsteps p - 1)))
        else (Num (- 2 ^ (k / bands p)), Num (2 ^ (k / bands p)))).
Proof.
  intros Hb Hc HL HK Hk. unfold get_value_range. rewrite (rd_some _ _ _ Hc). cbn [bind].
  assert (HL' : @length (mat R) ch0 = (nsteps p * bands p + 1)%nat) by exact HL.
  unfold decomposition in *. rewrite HL'. rewrite guard_true by lia. cbn [bind].
  replace (k =? nsteps p * bands p + 1 - 1)%nat with (k =? nsteps p * bands p)%nat by lia.
  assert (Hp2 : forall n, (n < 128)%nat -> pow2f (Z.of_nat n) = Num (2 ^ n)).
  { intros n Hn. unfold pow2f. replace (Z.of_nat n <? 128)%Z with true by lia. rewrite pow_IZR. reflexivity. }
  assert (Hst : steps p = Z.of_nat (nsteps p)).
  { unfold nsteps. pose proof (acc_steps p HA). lia. }
  rewrite Hb. destruct (Nat.eqb_spec k (nsteps p * bands p)) as [->|Hne]; cbn [negb].
  - rewrite to_size_id by lia. rewrite Hst. replace (Z.of_nat (nsteps p) - 1)%Z with (Z.of_nat (nsteps p - 1)) by lia.
    rewrite Hp2 by lia. reflexivity.
  - fold (is_1d p). fold (bands p). rewrite Hp2; [reflexivity|].
    assert (0 < bands p)%nat by (unfold bands; destruct (is_1d p); lia).
    assert (k / bands p < nsteps p)%nat by (apply Nat.div_lt_upper_bound; lia). lia.
Qed.

Lemma padf_bounds m M : shaped p m -> Forall (fun x => 0 <= x <= M) (elts m) -> 0 <= M -> forall i j, 0 <= padf p m i j <= M.
Proof.
  intros HS HF HM i j. unfold padf, mel.
  match goal with |- 0 <= nth ?k _ _ <= M => destruct (Nat.lt_ge_cases k (length (elts m))) as [H|H] end.
  - rewrite Forall_forall in HF. apply HF. apply nth_In. auto.
  - rewrite nth_overflow by auto. cbn. lra.
Qed.

Theorem ranges_sound b b' data M : wtype p = 1%Z -> (1 <= steps p)%Z -> reachable p b ->
  (1 <= signum p)%Z -> Z.of_nat (length data) = signum p -> Forall (shaped p) data -> 0 <= M ->
  Forall (fun m => Forall (fun x => 0 <= x <= M) (elts m)) data ->
  decompose b data null_denoiser = Ok (true, b') ->
  forall c ch k m, nth_error (bdec b') c = Some ch -> nth_error ch k = Some m ->
  exists lo hi, get_value_range b' k = Ok (lo, hi) /\
    Forall (fun x => at_least x (scaled M lo) /\ at_most x (scaled M hi)) (elts m).
Proof.
  intros Et Hst HR Hsig HL HS HM HF HD c ch k m Hc Hk.
  rewrite (dec_ok p HA) in HD by auto. inversion HD; subst b'; clear HD. cbn [bdec] in Hc.
  apply nth_error_map_some in Hc as (x & Hx & ->).
  assert (HLc : length (dec_of p null_denoiser x) = (nsteps p * bands p + 1)%nat).
  { apply (dec_of_layout p HA null_denoiser x null_keeps). }
  assert (Hkl : (k < nsteps p * bands p + 1)%nat) by (rewrite <- HLc; apply nth_error_Some; congruence).
  assert (HK : (1 <= nsteps p <= 62)%nat).
  { split; [unfold nsteps; lia|]. apply (steps_62 p HA). lia. }
  destruct data as [|x0 data]; [simpl in HL; lia|].
  rewrite (range_value _ k (dec_of p null_denoiser x0)); auto.
  2:{ apply (dec_of_layout p HA null_denoiser x0 null_keeps). }
  2:{ lia. }
  assert (HSx : shaped p x) by (rewrite Forall_forall in HS; apply HS; eapply nth_error_In; eauto).
  assert (HFx : Forall (fun x => 0 <= x <= M) (elts x)).
  { rewrite Forall_forall in HF. apply HF. eapply nth_error_In; eauto. }
  pose proof (padf_bounds x M HSx HFx HM) as HB.
  assert (HG : forall s, 0 <= gn p ^ s <= 2 ^ s).
  { intros s. pose proof (gn_bounds p). split; [apply pow_le; lra|]. apply pow_le_pow. lra. }
  assert (EK : gK g = nsteps p) by (apply (K_nsteps p HA)).
  assert (Es : gspw g = bands p) by (apply (spw_bands p HA)).
  unfold dec_of in Hk. fold g in Hk.
  destruct (Nat.eqb_spec k (nsteps p * bands p)) as [->|Hne].
  - do 2 eexists. split; [reflexivity|]. cbn [scaled at_least at_most].
    rewrite <- EK, <- Es, dec_pure_nth_approx in Hk. inversion Hk; subst m. unfold apm. apply forall_mk. intros i j Hi Hj.
    pose proof (ap_bound p HA (padf p x) M (gK g) Et HB ltac:(auto) i j Hi Hj) as H. fold g in H.
    rewrite EK in H. specialize (HG (nsteps p)).
    replace (2 * 2 ^ (nsteps p - 1)) with (2 ^ nsteps p) by (replace (nsteps p) with (S (nsteps p - 1)) at 1 by lia; reflexivity).
    rewrite EK. rewrite Rmult_0_r. split; [lra|]. nra.
  - do 2 eexists. split; [reflexivity|]. cbn [scaled at_least at_most].
    assert (Hsp : (0 < bands p)%nat) by (unfold bands; destruct (is_1d p); lia).
    set (s := (k / bands p)%nat) in *. set (bb := (k mod bands p)%nat).
    assert (Ek : k = (s * bands p + bb)%nat) by (unfold s, bb; rewrite Nat.mul_comm; apply Nat.div_mod; lia).
    assert (Hs : (s < nsteps p)%nat) by (unfold s; apply Nat.div_lt_upper_bound; lia).
    assert (Hb : (bb < bands p)%nat) by (unfold bb; apply Nat.mod_upper_bound; lia).
    rewrite Ek in Hk. rewrite <- Es in Hk. rewrite dec_pure_nth_detail in Hk by lia.
    destruct (detf_some g (padf p x) s bb ltac:(lia)) as (d & Hd). rewrite Hd in Hk. cbn [option_map] in Hk.
    rewrite null_apply in Hk by (intros; apply ws_1; auto). inversion Hk; subst m. apply forall_mk. intros i j Hi Hj.
    pose proof (det_bound p HA (padf p x) M s bb d i j Et HB ltac:(fold g; lia) Hd Hi Hj) as H.
    specialize (HG s). split; nra.
Qed.

Lemma range_zero_steps (b : buffer R) : steps p = 0%Z -> reachable p b -> (1 <= signum p)%Z ->
  get_value_range b 0 = Ok (Num 0, PosInf).
Proof.
  intros H0 HR Hs. pose proof (reachable_weak p b HA HR) as (Hp & HL & HC).
  destruct (bdec b) as [|ch0 rest] eqn:E; [simpl in HL; lia|].
  unfold get_value_range. rewrite E. cbn [rd nth_error bind].
  assert (HL0 : length ch0 = 1%nat).
  { specialize (HC ch0 (or_introl eq_refl)). rewrite HC. unfold decomposition_size; rewrite H0; reflexivity. }
  unfold decomposition in *. rewrite HL0. cbn [guard Nat.ltb Nat.leb bind Nat.eqb Nat.sub negb]. rewrite Hp, H0. reflexivity.
Qed.
End R.

(** DB2: an approximation value below 0 *)
Definition pdb2 : params := Params [8]%Z 1 1 2.
Definition impulse : mat R := mcolvec [0; 0; 0; 1; 0; 0; 0; 0].
Lemma pdb2_accepted : accepted pdb2.
Proof.
  unfold accepted, pdb2, params_rep, legal, u64, i32; cbn [shape signum steps wtype length].
  repeat split; auto; repeat constructor; lia.
Qed.
Lemma impulse_shaped : shaped pdb2 impulse.
Proof. repeat split. Qed.

Lemma db2_low : nth 3 (@lo_r R exactR 2) 0 < 0.
Proof.
  rewrite lo_up, nth_up. unfold up2.
  assert (H : Q2R (nth 3 (loQ 2) 0%Q) < 0).
  { assert (E : Qcompare (nth 3 (loQ 2) 0%Q) 0 = Lt) by (vm_compute; reflexivity).
    apply Qlt_alt, Qlt_Rlt in E. rewrite RMicromega.Q2R_0 in E. exact E. }
  assert (0 < sqrt 2) by (apply sqrt_lt_R0; lra). nra.
Qed.

Lemma db2_negative : ap (geom_of pdb2) (padf pdb2 impulse) 1 0 0 < 0.
Proof.
  pose proof (geom_wf pdb2 pdb2_accepted) as Gw.
  rewrite (ana_glue _ Gw) by (vm_compute; lia).
  unfold Ans, WM. change (gdim (geom_of pdb2) =? 1)%nat with true.
  change (ws (geom_of pdb2) 0) with 1%nat. rewrite An_1. change (gt (geom_of pdb2)) with 2%Z.
  change (hs (geom_of pdb2) 0) with (2 * 4)%nat. unfold HM.
  rewrite (proj1 (AM_A _ _ 4 _ 0%nat ltac:(lia))). cbn [ap].
  change (length (@lo_r R exactR 2)) with 4%nat. cbn [rsum].
  rewrite Rplus_0_l.
  change (padf pdb2 impulse ((2 * 0 + 0) mod (2 * 4)) 0) with 0.
  change (padf pdb2 impulse ((2 * 0 + 1) mod (2 * 4)) 0) with 0.
  change (padf pdb2 impulse ((2 * 0 + 2) mod (2 * 4)) 0) with 0.
  change (padf pdb2 impulse ((2 * 0 + 3) mod (2 * 4)) 0) with 1.
  pose proof db2_low. lra.
Qed.

Theorem range_db2 : exists b b' ch m x hi, new_buffer pdb2 = Ok b /\
  Forall (fun x => 0 <= x <= 1) (elts impulse) /\
  decompose b [impulse] null_denoiser = Ok (true, b') /\
  nth_error (bdec b') 0 = Some ch /\ nth_error ch 1 = Some m /\ In x (elts m) /\
  get_value_range b' 1 = Ok (Num 0, hi) /\ x < 0.
Proof.
  assert (HN : exists b : buffer R, new_buffer pdb2 = Ok b) by (eexists; vm_compute; reflexivity).
  destruct HN as (b & HN). exists b.
  assert (HR : reachable pdb2 b) by (apply reach_new; auto).
  pose proof (dec_ok pdb2 pdb2_accepted b [impulse] HR ltac:(simpl; lia) ltac:(reflexivity)
     ltac:(constructor; [apply impulse_shaped|constructor])) as HD.
  set (g := geom_of pdb2).
  exists (Buffer pdb2 (map (dec_of pdb2 null_denoiser) [impulse])), (dec_of pdb2 null_denoiser impulse),
    (apm g (padf pdb2 impulse) 1), (ap g (padf pdb2 impulse) 1 0 0).
  eexists. split; auto. split.
  { cbn [impulse mcolvec elts]. repeat constructor; lra. }
  split; [exact HD|]. split; [reflexivity|]. split.
  { pose proof (dec_pure_nth_approx g null_denoiser (padf pdb2 impulse)) as H.
    change (gK g * gspw g)%nat with 1%nat in H. change (gK g) with 1%nat in H. exact H. }
  split.
  { unfold apm, mk; cbn [elts]. apply in_map_iff. exists 0%nat. split; [reflexivity|]. vm_compute. auto. }
  split.
  { rewrite (range_value pdb2 pdb2_accepted _ 1 (dec_of pdb2 null_denoiser impulse)); auto.
    - reflexivity.
    - vm_compute; lia. }
  apply db2_negative.
Qed.
