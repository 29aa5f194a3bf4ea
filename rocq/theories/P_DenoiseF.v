(** * P_DenoiseF: the library denoisers on floats. *)
Require Import List Bool Arith ZArith QArith Qreals Lia Reals Lra.
Require Import ZifyBool Permutation.
Require Import Flocq.Core.Core Flocq.IEEE754.BinarySingleNaN.
Require Import Verif.M_Base Verif.M_Params Verif.M_Buffer Verif.M_Real Verif.M_Float Verif.M_Binary32 Verif.M_Denoise Verif.M_Mag32.
Require Import Verif.S_Params Verif.S_Buffer Verif.S_Exact Verif.S_Round Verif.S_Stable Verif.S_Denoise.
Require Import Verif.P_Impl Verif.P_Round.
Require Import Verif.P_Base Verif.P_Denoise Verif.P_Api Verif.P_Api2 Verif.P_Float Verif.P_Binary32 Verif.P_Bin2 Verif.P_Bin3.
Require Import Verif.P_Round2 Verif.P_Round3 Verif.P_Stable2 Verif.P_Dual3 Verif.P_BinMove Verif.P_BinMove2.
Import ListNotations.
Open Scope R_scope.

(** ** numbers *)
Lemma size32 n : (Z.of_nat n <= 2 ^ 62)%Z ->
  is_finite (f32_of_int (Z.of_nat n)) = true /\ B2R (f32_of_int (Z.of_nat n)) = r32 (INR n) /\ 0 <= r32 (INR n) <= bp 62.
Proof.
  intros H.
  assert (B : 0 <= r32 (INR n) <= bp 62).
  { split.
    - rewrite <- (round_0 radix2 fexp32 (round_mode mode_NE)). apply r32_le. apply pos_INR.
    - apply round_le_generic; try apply FLT_exp_valid; try apply valid_rnd_round_mode; try reflexivity.
      + apply generic_format_bpow. unfold SpecFloat.fexp, SpecFloat.emin. lia.
      + rewrite INR_IZR_INZ. change (bp 62) with (IZR (2 ^ 62)). apply IZR_le. exact H. }
  pose proof (binary_normalize_correct 24 128 eq_refl eq_refl mode_NE (Z.of_nat n) 0 false) as P. unfold f32_of_int.
  cbv zeta in P. unfold F2R in P. cbn [Fnum Fexp] in P. change (bpow radix2 0) with 1 in P. rewrite Rmult_1_r, <- INR_IZR_INZ in P.
  rewrite Rlt_bool_true in P.
  - destruct P as (P1 & P2 & _). split; [exact P2|]. split; [exact P1|exact B].
  - rewrite Rabs_pos_eq by apply B. eapply Rle_lt_trans; [apply B|]. apply bpow_lt. lia.
Qed.

Lemma trunc32 n (level : f32) : (Z.of_nat n <= 2 ^ 62)%Z -> is_finite level = true -> 0 <= B2R level <= 1 ->
  exists drop, f32_trunc n level = Ok drop /\ IZR (Z.of_nat drop) = IZR (Zfloor (r32 (r32 (INR n) * B2R level))).
Proof.
  intros Hn FL HL. destruct (size32 n Hn) as (FN & VN & BN).
  assert (B : 0 <= r32 (r32 (INR n) * B2R level) <= bp 62).
  { split.
    - rewrite <- (round_0 radix2 fexp32 (round_mode mode_NE)). apply r32_le. apply Rmult_le_pos; lra.
    - apply round_le_generic; try apply FLT_exp_valid; try apply valid_rnd_round_mode; try reflexivity.
      + apply generic_format_bpow. unfold SpecFloat.fexp, SpecFloat.emin. lia.
      + rewrite <- (Rmult_1_r (bp 62)). apply Rmult_le_compat; lra. }
  unfold f32_trunc. set (y := Bmult mode_NE (f32_of_int (Z.of_nat n)) level).
  pose proof (Bmult_correct 24 128 _ _ mode_NE (f32_of_int (Z.of_nat n)) level) as P. rewrite VN in P.
  rewrite Rlt_bool_true in P.
  2:{ change (round radix2 (SpecFloat.fexp 24 128) (round_mode mode_NE)) with r32. rewrite Rabs_pos_eq by apply B.
      eapply Rle_lt_trans; [apply B|]. apply bpow_lt. lia. }
  destruct P as (P1 & P2 & _). fold y in P1, P2. rewrite FN, FL in P2. cbn [andb] in P2.
  change (round radix2 (SpecFloat.fexp 24 128) (round_mode mode_NE)) with r32 in P1.
  assert (T : Btrunc y = Zfloor (r32 (r32 (INR n) * B2R level))).
  { apply eq_IZR. rewrite (Btrunc_correct 24 128 eq_refl), P1, round_FIX_IZR. rewrite Ztrunc_floor by apply B. reflexivity. }
  rewrite T, P2. cbn [andb].
  assert (Z0 : (0 <= Zfloor (r32 (r32 (INR n) * B2R level)))%Z) by (apply Zfloor_lub; apply B).
  assert (Z1 : (Zfloor (r32 (r32 (INR n) * B2R level)) < 2 ^ 64)%Z).
  { apply lt_IZR. eapply Rle_lt_trans; [apply Zfloor_lb|]. eapply Rle_lt_trans; [apply B|]. change (bp 62) with (IZR (2 ^ 62)). apply IZR_lt. lia. }
  rewrite (proj2 (Z.leb_le _ _) Z0), (proj2 (Z.ltb_lt _ _) Z1). cbn [andb].
  eexists. split; [reflexivity|]. rewrite Z2Nat.id by auto. reflexivity.
Qed.

Lemma drop_near n (l : R) : 0 <= l <= 1 ->
  let d := IZR (Zfloor (r32 (r32 (INR n) * l))) in
  Rabs (d - INR n * l) <= 1 + INR n * l / 2 ^ 22 + / 2 ^ 148.
Proof.
  intros Hl d. pose proof (pos_INR n) as Hn.
  pose proof (r32_total (INR n)) as E1. pose proof (r32_total (r32 (INR n) * l)) as E2.
  set (a := r32 (INR n)) in *. set (y := r32 (a * l)) in *.
  pose proof (Zfloor_lb y). pose proof (Zfloor_ub y). fold d in H, H0.
  pose proof u32_pos. pose proof eta32_pos.
  assert (U : u32 = / 2 ^ 24) by (unfold u32; rewrite (pow_IZR 2 24); reflexivity).
  assert (ET : eta32 = / 2 ^ 150) by (unfold eta32; rewrite (pow_IZR 2 150); reflexivity).
  assert (A0 : 0 <= a). { unfold a. rewrite <- (round_0 radix2 fexp32 (round_mode mode_NE)). apply r32_le. auto. }
  rewrite (Rabs_pos_eq (INR n)) in E1 by auto. rewrite (Rabs_pos_eq (a * l)) in E2 by (apply Rmult_le_pos; lra).
  apply Rabs_le_inv in E1. apply Rabs_le_inv in E2.
  assert (F1 : Rabs (a * l - INR n * l) <= u32 * (INR n * l) + eta32).
  { replace (a * l - INR n * l) with ((a - INR n) * l) by ring. rewrite Rabs_mult, (Rabs_pos_eq l) by lra.
    apply Rle_trans with ((u32 * INR n + eta32) * l); [apply Rmult_le_compat_r; [lra|apply Rabs_le; lra]|].
    rewrite Rmult_plus_distr_r, Rmult_assoc. assert (eta32 * l <= eta32 * 1) by (apply Rmult_le_compat_l; lra). lra. }
  apply Rabs_le_inv in F1. set (q := INR n * l) in *. assert (Q0 : 0 <= q) by (unfold q; apply Rmult_le_pos; lra).
  assert (N : / 2 ^ 148 = 4 * eta32).
  { rewrite ET. change 150%nat with (148 + 2)%nat. rewrite pow_add, Rinv_mult. simpl (2 ^ 2). field. }
  assert (M : q / 2 ^ 22 = 4 * u32 * q). { rewrite U. change 24%nat with (22 + 2)%nat. rewrite pow_add, Rinv_mult. simpl (2 ^ 2). field. }
  rewrite N, M. assert (u32 <= / 16) by (rewrite U; simpl; lra).
  assert (W : u32 * (a * l) <= 2 * (u32 * q) + eta32).
  { apply Rle_trans with (u32 * (q + (u32 * q + eta32))); [apply Rmult_le_compat_l; lra|].
    assert (u32 * (u32 * q) <= 1 * (u32 * q)) by (apply Rmult_le_compat_r; [apply Rmult_le_pos; lra|lra]).
    assert (u32 * eta32 <= 1 * eta32) by (apply Rmult_le_compat_r; lra). lra. }
  apply Rabs_le. lra.
Qed.

(** ** comparison *)
Lemma gt32 x y : is_finite x = true -> is_finite y = true -> mgt (mabs x) y = Rlt_bool (B2R y) (Rabs (B2R x)).
Proof.
  intros Fx Fy. cbn [mgt mabs floatMag]. rewrite Bltb_correct; auto; [|destruct x; auto]. rewrite B2R_Babs. reflexivity.
Qed.
Lemma gt32_false x y : is_finite x = true -> is_finite y = true -> mgt (mabs y) (mabs x) = false -> Rabs (B2R y) <= Rabs (B2R x).
Proof.
  intros Fx Fy H. rewrite gt32 in H; auto; [|destruct x; auto]. cbn [mabs floatMag] in H. rewrite B2R_Babs in H.
  apply Rnot_lt_le. intros L. rewrite Rlt_bool_true in H by auto. discriminate.
Qed.

Definition ordered (x : f32) : Prop := is_nan x = false.
Lemma finite_ordered l : Forall (fun x : f32 => is_finite x = true) l -> Forall (fun x => ordered (mabs x)) l.
Proof. intros H. rewrite Forall_forall in *. intros x Hx. specialize (H x Hx). destruct x; try discriminate; reflexivity. Qed.

(** ** SimpleDenoiseAlgorithm *)
Theorem simple32_1 ne (level : f32) (data : list f32) :
  nth_element_on ordered ne -> is_finite level = true -> 0 <= B2R level <= 1 -> (Z.of_nat (length data) <= 2 ^ 62)%Z ->
  Forall (fun x : f32 => is_finite x = true) data ->
  exists out keep drop, simple1 ne level data = Ok out /\
    Rabs (INR drop - INR (length data) * B2R level) <= 1 + INR (length data) * B2R level / 2 ^ 22 + / 2 ^ 148 /\
    NoDup keep /\ Forall (fun i => (i < length data)%nat) keep /\
    length keep = (length data - Nat.min drop (length data - 1))%nat /\
    keeps_only1 keep data out /\
    forall i j x y, In i keep -> ~ In j keep -> nth_error data i = Some x -> nth_error data j = Some y ->
      Rabs (B2R y) <= Rabs (B2R x).
Proof.
  intros HC FL HL Hn HF. destruct (trunc32 _ level Hn FL HL) as (drop & E & V).
  destruct (simple1_on ordered ne level data drop HC (finite_ordered _ HF) E) as (out & keep & Eo & ND & FK & LK & KO & GT).
  exists out, keep, drop. split; auto. split.
  { rewrite (INR_IZR_INZ drop), V. apply drop_near; auto. }
  repeat (split; auto). intros i j x y Hi Hj Hx Hy. rewrite Forall_forall in HF.
  apply gt32_false; [apply HF; eapply nth_error_In; eauto|apply HF; eapply nth_error_In; eauto|eapply GT; eauto].
Qed.
Theorem simple32_2 ne (level : f32) (data : mat f32) : mwf data ->
  nth_element_on ordered ne -> is_finite level = true -> 0 <= B2R level <= 1 -> (Z.of_nat (rows data * cols data) <= 2 ^ 62)%Z ->
  all_finite data ->
  exists out keep drop, simple2 ne level data = Ok out /\
    Rabs (INR drop - INR (rows data * cols data) * B2R level) <= 1 + INR (rows data * cols data) * B2R level / 2 ^ 22 + / 2 ^ 148 /\
    NoDup keep /\ Forall (fun p => (fst p < rows data /\ snd p < cols data)%nat) keep /\
    length keep = (rows data * cols data - Nat.min drop (rows data * cols data - 1))%nat /\
    keeps_only2 keep data out /\
    forall i j i' j' x y, In (i, j) keep -> ~ In (i', j') keep -> mget data i j = Ok x -> mget data i' j' = Ok y ->
      Rabs (B2R y) <= Rabs (B2R x).
Proof.
  intros W HC FL HL Hn HF. destruct (trunc32 _ level Hn FL HL) as (drop & E & V).
  destruct (simple2_on ordered ne level data drop W HC (finite_ordered _ HF) E) as (out & keep & Eo & ND & FK & LK & KO & GT).
  exists out, keep, drop. split; auto. split.
  { rewrite (INR_IZR_INZ drop), V. apply drop_near; auto. }
  repeat (split; auto). intros i j i' j' x y Hi Hj Hx Hy. unfold all_finite in HF. rewrite Forall_forall in HF.
  assert (IN : forall i j x, mget data i j = Ok x -> In x (elts data)).
  { clear. intros i j x H. unfold mget in H. destruct ((i <? rows data)%nat && (j <? cols data)%nat); [|discriminate].
    apply rd_ok in H. eapply nth_error_In; eauto. }
  apply gt32_false; [apply HF; eapply IN; eauto|apply HF; eapply IN; eauto|eapply GT; eauto].
Qed.

(** ** ThresholdAbsDenoiseAlgorithm *)
Lemma nan_gt (x th : f32) : is_nan x = true -> mgt (mabs x) th = false.
Proof. destruct x; try discriminate. intros _. destruct th; reflexivity. Qed.

Lemma thr_rule a b s (x : f32) : is_finite (get_threshold a b s) = true -> is_finite x = true ->
  let th := B2R (get_threshold a b s) in
  let y := if mgt (mabs x) (get_threshold a b s) then x else @a0 f32 binary32 in
  (th < Rabs (B2R x) -> y = x) /\ (Rabs (B2R x) <= th -> y = B754_zero false).
Proof.
  intros Ft Fx th y. unfold y. rewrite gt32 by auto. fold th.
  split; intros H; [rewrite Rlt_bool_true by auto|rewrite Rlt_bool_false by auto]; reflexivity.
Qed.

(** value of the threshold *)
Lemma thr_value (a b : f32) s : (s <= 256)%nat -> is_finite (get_threshold a b s) = true ->
  B2R (get_threshold a b s) = r32 (r32 (B2R a * INR s) + B2R b).
Proof.
  intros Hs HF. unfold get_threshold in *. cbn [aadd amul mnat binary32 floatMag] in *.
  destruct (val_int (Z.of_nat s) ltac:(lia)) as [VS FS].
  set (n := f32_of_int (Z.of_nat s)) in *. set (m := Bmult mode_NE a n) in *.
  assert (Fm : is_finite m = true). { destruct m, b; try discriminate; auto; cbn in HF; destruct (Bool.eqb _ _); discriminate. }
  assert (Fb : is_finite b = true). { destruct m, b; try discriminate; auto. }
  pose proof (Bmult_correct 24 128 _ _ mode_NE a n) as PM. fold m in PM.
  pose proof (Bplus_correct 24 128 _ _ mode_NE m b Fm Fb) as PA.
  destruct (Rlt_bool _ (bpow radix2 128)) in PM.
  - destruct PM as (PM & _). destruct (Rlt_bool _ (bpow radix2 128)) in PA.
    + destruct PA as (PA & _). rewrite PA, PM, VS, <- INR_IZR_INZ. reflexivity.
    + destruct PA as (PA & _). exfalso. destruct (Bplus mode_NE m b); cbn in HF; try discriminate;
        cbn in PA; unfold binary_overflow in PA; cbn in PA; discriminate.
  - exfalso. destruct m; cbn in Fm; try discriminate; cbn in PM; unfold binary_overflow in PM; cbn in PM; discriminate.
Qed.

Theorem threshold32 (a b : f32) step : is_finite (get_threshold a b step) = true ->
  let th := B2R (get_threshold a b step) in
  (forall data, exists out, threshold1 a b data step = Ok out /\ length out = length data /\
    (forall i x, nth_error data i = Some x -> exists y, nth_error out i = Some y /\
       (is_nan x = true -> y = B754_zero false) /\
       (is_finite x = true -> (th < Rabs (B2R x) -> y = x) /\ (Rabs (B2R x) <= th -> y = B754_zero false)))) /\
  (forall data, mwf data -> exists out, threshold2 a b data step = Ok out /\ sized (rows data) (cols data) out /\
    (forall i j x, mget data i j = Ok x -> exists y, mget out i j = Ok y /\
       (is_nan x = true -> y = B754_zero false) /\
       (is_finite x = true -> (th < Rabs (B2R x) -> y = x) /\ (Rabs (B2R x) <= th -> y = B754_zero false)))).
Proof.
  intros Ft th. split.
  - intros data. destruct (threshold_semantics1 a b data step) as (out & E & L & H & _). exists out. repeat (split; auto).
    intros i x Hx. eexists. split; [apply H; eauto|]. split; [intros N; rewrite nan_gt by auto; reflexivity|].
    intros Fx. exact (thr_rule a b step x Ft Fx).
  - intros data W. destruct (threshold_semantics2 a b data step W) as (out & E & L & H & _). exists out. split; auto. split; auto.
    intros i j x Hx. eexists. split; [apply H; eauto|]. split; [intros N; rewrite nan_gt by auto; reflexivity|].
    intros Fx. exact (thr_rule a b step x Ft Fx).
Qed.

(** ** both keep or zero *)
Lemma threshold_kept (a b : f32) : keeps_or_zeroes (threshold_denoiser a b).
Proof.
  assert (Q : forall s l, kept l (map (thr_val a b s) l)).
  { intros s. induction l as [|x l IH]; constructor; auto. unfold thr_val. destruct (mgt _ _); auto. }
  split; cbn [den1 den2 threshold_denoiser].
  - intros l s _. rewrite threshold1_ok. apply Q.
  - intros m s W _. rewrite threshold2_ok by auto. apply Q.
Qed.

Lemma Forall2_nth {X Y} (P : X -> Y -> Prop) l : forall l', length l' = length l ->
  (forall i x, nth_error l i = Some x -> exists y, nth_error l' i = Some y /\ P x y) -> Forall2 P l l'.
Proof.
  induction l as [|x l IH]; intros [|y l'] HL H; try discriminate; constructor.
  - destruct (H 0%nat x eq_refl) as (z & E & HP). inversion E; subst z. auto.
  - apply IH; [simpl in HL; lia|]. intros i z Hz. exact (H (S i) z Hz).
Qed.

Lemma simple_shape {T} {A : Arith T} {M : Mag T} ne1 ne2 (level : T) : keeps_shape (simple_denoiser ne1 ne2 level).
Proof.
  split; cbn [den1 den2 simple_denoiser].
  - intros l s. destruct (simple1 ne1 level l) as [out| |] eqn:E; auto. cbn [total_of].
    unfold simple1 in E. apply bind_ok in E as (v & _ & E). apply bind_ok in E as (k & _ & E). apply bind_ok in E as (q & _ & E).
    cbv zeta in E. apply (loop_partial _ _ _ (fun _ o => length o = length l)) in E; auto; [apply repeat_length|].
    intros i o o' _ Ho Eo. apply bind_ok in Eo as (e & _ & Eo). apply bind_ok in Eo as (x & _ & Eo). apply wr_ok in Eo as (_ & ->).
    rewrite upd_length. auto.
  - intros m s W. destruct (simple2 ne2 level m) as [out| |] eqn:E; [|split; auto..]. cbn [total_of].
    unfold simple2 in E. apply bind_ok in E as (v & _ & E). apply bind_ok in E as (w & _ & E). apply bind_ok in E as (k & _ & E).
    apply bind_ok in E as (q & _ & E).
    cbv zeta in E. apply (loop_partial _ _ _ (fun _ o => sized (rows m) (cols m) o)) in E; auto.
    + unfold sized, mwf, mzero. cbn [rows cols elts]. rewrite repeat_length. auto.
    + intros i o o' _ Ho Eo. apply bind_ok in Eo as ((e & r & c) & _ & Eo). apply bind_ok in Eo as (x & _ & Eo).
      unfold mset in Eo. apply bind_ok in Eo as (? & _ & Eo). apply bind_ok in Eo as (l & El & Eo). inversion Eo; subst o'.
      apply wr_ok in El as (_ & ->). destruct Ho as (Wo & R & C). unfold sized, mwf in *. cbn [rows cols elts]. rewrite upd_length. auto.
Qed.

Lemma simple_kept ne1 ne2 (level : f32) : nth_element_on ordered ne1 -> nth_element_on ordered ne2 ->
  keeps_or_zeroes (simple_denoiser ne1 ne2 level).
Proof.
  intros H1 H2. split; cbn [den1 den2 simple_denoiser].
  - intros l s HF. destruct (simple1 ne1 level l) as [out| |] eqn:Es; [|apply kept_refl..]. cbn [total_of].
    assert (E : exists drop, mtrunc (length l) level = Ok drop).
    { unfold simple1 in Es. apply bind_ok in Es as (v & _ & Es). apply bind_ok in Es as (k & Ek & _).
      unfold slice_index in Ek. apply bind_ok in Ek as (drop & Ed & _). eauto. }
    destruct E as (drop & E).
    destruct (simple1_on ordered ne1 level l drop H1 (finite_ordered _ HF) E) as (out' & keep & Eo & _ & _ & _ & (HL & KO) & _).
    rewrite Es in Eo. inversion Eo; subst out'. apply Forall2_nth; auto. intros i x Hx. eexists. split; [apply KO; eauto|].
    destruct (existsb _ _); auto.
  - intros m s W HF. destruct (simple2 ne2 level m) as [out| |] eqn:Es; [|apply kept_refl..]. cbn [total_of].
    assert (E : exists drop, mtrunc (rows m * cols m) level = Ok drop).
    { unfold simple2 in Es. apply bind_ok in Es as (v & _ & Es). apply bind_ok in Es as (w & _ & Es). apply bind_ok in Es as (k & Ek & _).
      unfold slice_index in Ek. apply bind_ok in Ek as (drop & Ed & _). eauto. }
    destruct E as (drop & E).
    destruct (simple2_on ordered ne2 level m drop W H2 (finite_ordered _ HF) E) as (out' & keep & Eo & _ & _ & _ & (Wo & R & C & KO) & _).
    rewrite Es in Eo. inversion Eo; subst out'. clear Eo.
    assert (HL : length (elts out) = length (elts m)) by (unfold mwf in *; rewrite Wo, W, R, C; reflexivity).
    apply Forall2_nth; auto. intros k x Hx.
    assert (Hk : (k < rows m * cols m)%nat) by (unfold mwf in W; rewrite <- W; apply nth_error_Some; intros Q; pose proof (eq_trans (eq_sym Hx) Q); discriminate).
    assert (C0 : (0 < cols m)%nat) by (destruct (cols m); lia).
    set (i := (k / cols m)%nat). set (j := (k mod cols m)%nat).
    assert (Ek : k = (i * cols m + j)%nat) by (rewrite Nat.mul_comm; apply Nat.div_mod; lia).
    assert (Hi : (i < rows m)%nat) by (apply Nat.div_lt_upper_bound; lia).
    assert (Hj : (j < cols m)%nat) by (apply Nat.mod_upper_bound; lia).
    assert (G : mget m i j = Ok x).
    { unfold mget. replace ((i <? rows m)%nat && (j <? cols m)%nat) with true by lia. rewrite <- Ek. apply rd_some. auto. }
    specialize (KO i j x G). unfold mget in KO. rewrite R, C in KO.
    replace ((i <? rows m)%nat && (j <? cols m)%nat) with true in KO by lia. rewrite <- Ek in KO. apply rd_ok in KO.
    eexists. split; [exact KO|]. destruct (in_pos i j keep); auto.
Qed.

Lemma nth_map_inv {X Y} (f : X -> Y) l k y : nth_error (map f l) k = Some y -> exists x, nth_error l k = Some x /\ y = f x.
Proof. rewrite nth_error_map. destruct (nth_error l k) as [x|]; [|discriminate]. intros E. inversion E. eauto. Qed.

(** ** thresholding, composed *)
Theorem threshold_binary32 p (b : buffer f32) data (ta tb : f32) T : accepted p -> @reachable f32 binary32 p b -> 0 <= T ->
  (forall s, (s < nsteps p)%nat -> is_finite (get_threshold ta tb s) = true /\ B2R (get_threshold ta tb s) <= T) ->
  (1 <= signum p)%Z -> Z.of_nat (length data) = signum p -> Forall (shaped p) data ->
  Forall all_finite data -> Forall (fun m => padded_energy p (values m) <= 2 ^ 220) data ->
  exists b0 b1 out, @decompose f32 binary32 b data null_denoiser = Ok (true, b0) /\
    @decompose f32 binary32 b data (threshold_denoiser ta tb) = Ok (true, b1) /\
    @compose f32 binary32 b1 0 = Ok (true, out) /\ length out = length data /\
    forall c m ch0 ch1 o, nth_error data c = Some m -> nth_error (bdec b0) c = Some ch0 -> nth_error (bdec b1) c = Some ch1 ->
      nth_error out c = Some o ->
      sized (drows p) (dcols p) o /\ all_finite o /\
      error p (values o) (values m) <= float_rel u32 p * sqrt (padded_energy p (values m)) + underflow u32 eta32 p
        + step_gain u32 p ^ nsteps p * (T * sqrt (INR (changes (map values ch0) (map values ch1)))).
Proof.
  intros HA Hr HT Hthr Hsig HL HS HF HE.
  destruct (kept_binary32 p HA b data (threshold_denoiser ta tb)) as (b0 & b1 & out & E0 & E1 & Ec & Hlen & Hall); auto.
  { apply threshold_keeps. } { apply threshold_kept. }
  pose proof (@threshold_in_decompose f32 binary32 floatMag p b b data ta tb HA Hr Hsig HL HS) as TD. destruct TD as (b1' & b0' & F1 & F0 & HD).
  rewrite E1 in F1. rewrite E0 in F0. inversion F1; inversion F0; subst b1' b0'. clear F1 F0.
  exists b0, b1, out. split; auto. split; auto. split; auto. split; auto.
  intros c m ch0 ch1 o Hm H0 H1 Ho. destruct (Hall c m ch0 ch1 o Hm H0 H1 Ho) as (Hsz & Hfin & Herr).
  split; auto. split; auto. eapply Rle_trans; [exact Herr|]. apply Rplus_le_compat_l. apply Rmult_le_compat_l.
  { apply pow_le. rewrite <- (stepg_gain u32 p HA). pose proof (stepg_1 u32 u32_pos (geom_of p)). lra. }
  rewrite Forall_forall in HS, HF, HE. pose proof (nth_error_In _ _ Hm) as Im.
  assert (E : ch0 = @dec_of p f32 binary32 null_denoiser m).
  { pose proof (@dec_okA f32 binary32 p HA b data Hr Hsig HL (proj2 (Forall_forall _ _) HS)) as F. rewrite E0 in F. inversion F; subst b0.
    cbn [bdec] in H0. rewrite nth_error_map, Hm in H0. inversion H0; subst ch0. reflexivity. }
  assert (Hlk : has_layout p ch0) by (subst ch0; apply (dec_of_layout p HA (@null_denoiser f32) m null_keepsA)).
  assert (FIN : Forall all_finite ch0) by (subst ch0; apply (subbands_finite p HA m); auto).
  apply root_within; auto. destruct (HD c ch1 ch0) as [HDa HDd]; auto.
  intros k d0 d1 Hk0 Hk1 i x y Hx Hy.
  apply nth_map_inv in Hk0 as (D0 & N0 & ->). apply nth_map_inv in Hk1 as (D1 & N1 & ->).
  rewrite values_elts in Hx, Hy. apply nth_map_inv in Hx as (X & NX & ->). apply nth_map_inv in Hy as (Y & NY & ->).
  assert (Hk : (k < nsteps p * bands p + 1)%nat).
  { destruct Hlk as [Hlk _]. rewrite <- Hlk. apply nth_error_Some. congruence. }
  destruct (Nat.eq_dec k (nsteps p * bands p)) as [->|Hne].
  - rewrite HDa, N0 in N1. inversion N1; subst D1. rewrite NX in NY. inversion NY; subst Y.
    unfold Rminus. rewrite Rplus_opp_r, Rabs_R0. auto.
  - destruct (nth_split p k HA ltac:(lia)) as (s & ib & -> & Hs & Hib).
    pose proof (HDd s ib D1 D0 Hs Hib N1 N0) as ED. rewrite ED in NY. apply nth_map_inv in NY as (X' & NX' & ->).
    pose proof (eq_trans (eq_sym NX) NX') as EX. injection EX as <-. destruct (Hthr s Hs) as (Ft & Bt).
    assert (FX : is_finite X = true).
    { rewrite Forall_forall in FIN. specialize (FIN D0 (nth_error_In _ _ N0)). unfold all_finite in FIN. rewrite Forall_forall in FIN.
      apply FIN. eapply nth_error_In; eauto. }
    destruct (thr_rule ta tb s X Ft FX) as [K Z]. cbv zeta in K, Z.
    destruct (Rlt_le_dec (B2R (get_threshold ta tb s)) (Rabs (B2R X))) as [L|L].
    + eapply Rle_trans; [apply Req_le; apply (f_equal (fun v : f32 => Rabs (B2R v - B2R X)) (K L))|].
      cbv beta. unfold Rminus. rewrite Rplus_opp_r, Rabs_R0. auto.
    + eapply Rle_trans; [apply Req_le; apply (f_equal (fun v : f32 => Rabs (B2R v - B2R X)) (Z L))|].
      cbv beta. cbn [B2R]. replace (0 - B2R X) with (- B2R X) by ring. rewrite Rabs_Ropp. lra.
Qed.

(** ** an implementation of std::nth_element on floats *)
Section Sort.
Context {K : Type}.
Fixpoint ins32 (e : f32 * K) (l : list (f32 * K)) : list (f32 * K) :=
  match l with
  | [] => [e]
  | x :: l' => if Bltb (fst e) (fst x) then x :: ins32 e l' else e :: x :: l'
  end.
Definition sort32 (l : list (f32 * K)) (k : nat) : list (f32 * K) := fold_right ins32 [] l.
(** infinities as +-2^128 *)
Definition ext (x : f32) : R :=
  match x with B754_infinity s => if s then - bp 128 else bp 128 | _ => B2R x end.
Lemma ext_lt x y : is_nan x = false -> is_nan y = false -> Bltb x y = Rlt_bool (ext x) (ext y).
Proof.
  intros Nx Ny.
  destruct (is_finite x) eqn:Fx, (is_finite y) eqn:Fy.
  - rewrite Bltb_correct by auto. destruct x, y; try discriminate; reflexivity.
  - destruct y as [|s| |]; try discriminate. pose proof (abs_B2R_lt_emax 24 128 x) as B. apply Rabs_lt_inv in B.
    assert (E : ext x = B2R x) by (destruct x; try discriminate; reflexivity). rewrite E. cbn [ext].
    destruct s; [rewrite Rlt_bool_false by lra|rewrite Rlt_bool_true by lra]; destruct x as [[]|?| |[]]; try discriminate; reflexivity.
  - destruct x as [|s| |]; try discriminate. pose proof (abs_B2R_lt_emax 24 128 y) as B. apply Rabs_lt_inv in B.
    assert (E : ext y = B2R y) by (destruct y; try discriminate; reflexivity). rewrite E. cbn [ext].
    destruct s; [rewrite Rlt_bool_true by lra|rewrite Rlt_bool_false by lra]; destruct y as [[]|?| |[]]; try discriminate; reflexivity.
  - destruct x as [|s| |]; try discriminate. destruct y as [|s'| |]; try discriminate. cbn [ext]. pose proof (bp_pos 128).
    destruct s, s'; [rewrite Rlt_bool_false by lra|rewrite Rlt_bool_true by lra|rewrite Rlt_bool_false by lra|rewrite Rlt_bool_false by lra]; reflexivity.
Qed.
Definition lift (e : f32 * K) : R * (f32 * K) := (ext (fst e), e).
Lemma ins_lift e l : ordered (fst e) -> Forall (fun e => ordered (fst e)) l -> map lift (ins32 e l) = ins (lift e) (map lift l).
Proof.
  intros He H. induction H as [|x l Hx _ IH]; [reflexivity|]. cbn [map ins32 ins].
  rewrite ext_lt by auto. change (fst (lift e)) with (ext (fst e)). change (fst (lift x)) with (ext (fst x)).
  destruct (Rlt_dec (ext (fst e)) (ext (fst x))) as [L|L].
  - rewrite Rlt_bool_true by auto. cbn [map]. rewrite IH. reflexivity.
  - rewrite Rlt_bool_false by lra. reflexivity.
Qed.
Lemma ins_ordered e l : ordered (fst e) -> Forall (fun e => ordered (fst e)) l -> Forall (fun e => ordered (fst e)) (ins32 e l).
Proof. intros He H. induction H; cbn [ins32]; [auto|]. destruct (Bltb _ _); auto. Qed.
Lemma sort_lift l : Forall (fun e => ordered (fst e)) l ->
  map lift (fold_right ins32 [] l) = fold_right ins [] (map lift l) /\ Forall (fun e => ordered (fst e)) (fold_right ins32 [] l).
Proof.
  intros H. induction H as [|x l Hx _ [IH1 IH2]]; [split; [reflexivity|constructor]|]. cbn [map fold_right]. split.
  - rewrite ins_lift, IH1 by auto. reflexivity.
  - apply ins_ordered; auto.
Qed.
Lemma sort32_contract : nth_element_on (fun x : f32 => is_nan x = false) sort32.
Proof.
  intros l k Hk Ho. destruct (sort_lift l Ho) as [E Ho']. unfold sort32.
  destruct (sort_contract (map lift l) k) as [P D]; [rewrite map_length; auto|]. unfold sort_desc in P, D. rewrite <- E in P, D.
  split.
  - apply (Permutation_map snd) in P. rewrite !map_map in P. cbn [snd lift] in P. rewrite !map_id in P. exact P.
  - intros i j x y Hi Hj Hx Hy. specialize (D i j (lift x) (lift y) Hi Hj (map_nth_error lift _ _ Hx) (map_nth_error lift _ _ Hy)).
    rewrite Forall_forall in Ho'. pose proof (Ho' x (nth_error_In _ _ Hx)) as Nx. pose proof (Ho' y (nth_error_In _ _ Hy)) as Ny.
    cbn [mgt floatMag]. rewrite ext_lt by auto. cbn [mgt realMag fst lift] in D.
    destruct (Rlt_dec (ext (fst x)) (ext (fst y))) as [L|L]; [discriminate|]. apply Rlt_bool_false. lra.
Qed.
End Sort.

(** ** level 0 *)
Lemma trunc32_0 n (level : f32) : (Z.of_nat n <= 2 ^ 62)%Z -> is_finite level = true -> B2R level = 0 -> f32_trunc n level = Ok 0%nat.
Proof.
  intros Hn FL HL. destruct (trunc32 n level Hn FL) as (drop & E & V); [lra|]. rewrite E. f_equal.
  rewrite HL, Rmult_0_r, (round_0 radix2 fexp32 (round_mode mode_NE)) in V. change 0%R with (IZR 0) in V. rewrite Zfloor_IZR in V.
  apply eq_IZR in V. lia.
Qed.
Theorem level0_32 ne1 ne2 (level : f32) : nth_element_on ordered ne1 -> nth_element_on ordered ne2 ->
  is_finite level = true -> B2R level = 0 ->
  (forall data : list f32, (Z.of_nat (length data) <= 2 ^ 62)%Z -> Forall (fun x : f32 => is_finite x = true) data ->
     simple1 ne1 level data = Ok data) /\
  (forall data : mat f32, mwf data -> (Z.of_nat (rows data * cols data) <= 2 ^ 62)%Z -> all_finite data ->
     simple2 ne2 level data = Ok data).
Proof.
  intros H1 H2 FL HL. split.
  - intros data Hn HF.
    destruct (simple1_on ordered ne1 level data 0 H1 (finite_ordered _ HF) (trunc32_0 _ level Hn FL HL)) as (out & keep & E & ND & FK & LK & KO & _).
    rewrite E. f_equal. apply (keep_all1 keep); auto. rewrite LK. lia.
  - intros data W Hn HF.
    destruct (simple2_on ordered ne2 level data 0 W H2 (finite_ordered _ HF) (trunc32_0 _ level Hn FL HL)) as (out & keep & E & ND & FK & LK & KO & _).
    rewrite E. f_equal. apply (keep_all2 keep); auto. rewrite LK. lia.
Qed.
