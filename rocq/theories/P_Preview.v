(** * P_Preview: scaled composition against a decomposition in fewer steps. *)
Require Import List Bool Arith ZArith QArith Qreals Lia Reals Lra Psatz FunctionalExtensionality.
Require Import ZifyBool.
Require Import Verif.M_Base Verif.M_Params Verif.M_Padding Verif.M_Wavelet Verif.M_Buffer Verif.M_Real.
Require Import Verif.S_Params Verif.S_Padding Verif.S_Buffer Verif.S_Exact Verif.S_Round Verif.S_Stable Verif.S_Preview.
Require Import Verif.P_Base Verif.P_Wavelet Verif.P_Buffer Verif.P_Impl Verif.P_Api Verif.P_Api2 Verif.P_More.
Require Import Verif.P_Sum Verif.P_Lin Verif.P_PR Verif.P_L2 Verif.P_Rec Verif.P_Exact Verif.P_Rel Verif.P_Round Verif.P_Round2 Verif.P_Round3.
Require Import Verif.P_Stable Verif.P_Stable2 Verif.P_Dual Verif.P_Dual2 Verif.P_Dual3 Verif.P_Acc.
Import ListNotations.
Open Scope R_scope.

Section Round.
Variables (u eta : R) (A : Arith R).
Hypothesis (HR : rounding u eta A) (Hu : 0 <= u) (Heta : 0 <= eta).

Section Geom.
Variable g : geom.
Hypothesis G : gwf g.
Notation K := (gK g).
Notation N2 s := (nrm (hs g s) (ws g s)).
Notation apA := (@ap R A g).
Notation apE := (@ap R exactR g).
Notation rcA := (@rc R A g).
Notation a := (stepg u g).
Notation kp := (kap u eta g).
Notation gn := (gain g).
Variables (chA : decomposition R) (xA : nat -> nat -> R).
Hypothesis HA1 : holdsA A g chA xA.
Variables (ch0 : decomposition R) (x : nat -> nat -> R).
Hypothesis H0 : holdsA exactR g ch0 x.
Hypothesis Hx : forall i j, xA i j = x i j.

Lemma ea_all s : (s <= K)%nat -> N2 s (fun i j => apA xA s i j - apE x s i j) <= FF u eta g (N2 0 x) s.
Proof.
  intros Hs. change (ea A g xA x s <= FF u eta g (N2 0 x) s).
  pose proof (stepg_1 u Hu g) as S1. pose proof (kap_0 u eta Hu Heta g) as K0. pose proof (gain_stepg u Hu g) as GS.
  eapply Rle_trans; [|apply (hyp_tele (ea A g xA x) (dl2 exactR g ch0 chA)
    (fun s => (a - gn) * N2 s (apA xA s) + kp) (FF u eta g (N2 0 x)) gn K (gain_1 g)); auto].
  - rewrite <- (sqrt_square (ea A g xA x s)) at 1 by apply nrm_pos. apply sqrt_le_1_alt.
    assert (0 <= rsum s (dl2 exactR g ch0 chA)) by (apply rsum_nonneg; intros; apply dl2_pos). unfold sq. lra.
  - intros; apply nrm_pos.
  - intros; apply dl2_pos.
  - intros. apply Rplus_le_le_0_compat; auto. apply Rmult_le_pos; [lra|apply nrm_pos].
  - intros. apply (acc_step u eta A HR Hu Heta g G chA xA HA1 ch0 x H0); auto.
  - unfold ea, FF. cbn [ap pow INR]. rewrite nrm_zero by (intros; rewrite Hx; ring). lra.
  - intros. apply (FF_step u eta Hu Heta g); [apply nrm_pos|]. eapply Rle_trans; [apply (apA_norm u eta A HR Hu Heta g G xA); lia|].
    apply Req_le. do 2 f_equal. apply nrm_ext. auto.
Qed.

Lemma shrink_norm k : (k <= K)%nat -> N2 k (apA xA k) <= a ^ k * (N2 0 x + INR k * kp).
Proof.
  intros Hk. eapply Rle_trans; [apply (apA_norm u eta A HR Hu Heta g G xA); lia|].
  apply Req_le. do 2 f_equal. apply nrm_ext. auto.
Qed.

Lemma under_sum k : (k <= K)%nat ->
  a ^ (2 * (K - k)) * (a ^ k * (N2 0 x + INR k * kp)) + 2 * INR (K - k) * a ^ (2 * (K - k)) * kp + INR k * a ^ k * kp <=
  a ^ (2 * K - k) * N2 0 x + 2 * INR K * a ^ (2 * K) * kp.
Proof.
  intros Hk. pose proof (stepg_1 u Hu g) as S1. pose proof (kap_0 u eta Hu Heta g) as K0.
  rewrite <- Rmult_assoc, <- pow_add. replace (2 * (K - k) + k)%nat with (2 * K - k)%nat by lia.
  set (n := N2 0 x).
  assert (P : forall j, (j <= 2 * K)%nat -> 0 <= a ^ j <= a ^ (2 * K)).
  { intros j Hj. split; [apply pow_le; lra|apply Rle_pow; auto]. }
  pose proof (P (2 * K - k)%nat ltac:(lia)) as P1. pose proof (P (2 * (K - k))%nat ltac:(lia)) as P2. pose proof (P k ltac:(lia)) as P3.
  set (b1 := a ^ (2 * K - k)) in *. set (b2 := a ^ (2 * (K - k))) in *. set (b3 := a ^ k) in *. set (B := a ^ (2 * K)) in *.
  rewrite minus_INR by auto. pose proof (pos_INR k) as I0. apply le_INR in Hk as I1.
  set (ik := INR k) in *. set (iK := INR K) in *.
  assert (Q : b1 * ik + 2 * (iK - ik) * b2 + ik * b3 <= 2 * iK * B).
  { assert (b1 * ik <= B * ik) by (apply Rmult_le_compat_r; lra).
    assert (ik * b3 <= ik * B) by (apply Rmult_le_compat_l; lra).
    assert (2 * (iK - ik) * b2 <= 2 * (iK - ik) * B) by (apply Rmult_le_compat_l; lra). lra. }
  apply (Rmult_le_compat_r kp) in Q; auto. lra.
Qed.

(** what composition reaches at level k, against the exact approximation *)
Lemma level_err k : (k <= K)%nat ->
  N2 k (fun i j => rcA chA (K - k) i j - apE x k i j) <=
  (a ^ (2 * K - k) - gn ^ k) * N2 0 x + 2 * INR K * a ^ (2 * K) * kp.
Proof.
  intros Hk. pose proof (stepg_1 u Hu g) as S1. pose proof (kap_0 u eta Hu Heta g) as K0.
  pose proof (rec_errA u eta A HR Hu Heta g G chA xA (K - k) HA1 ltac:(lia)) as E1.
  replace (K - (K - k))%nat with k in E1 by lia.
  pose proof (ea_all k Hk) as E2. pose proof (shrink_norm k Hk) as E3. pose proof (under_sum k Hk) as E4.
  rewrite (nrm_ext _ _ _ (fun i j => (rcA chA (K - k) i j - apA xA k i j) + (apA xA k i j - apE x k i j))) by (intros; ring).
  eapply Rle_trans; [apply nrm_triang|]. unfold FF in E2.
  assert (P1 : 1 <= a ^ (2 * (K - k))) by (apply pow_R1_Rle; auto).
  set (n := N2 0 x) in *. set (X := N2 k (apA xA k)) in *. set (Y := a ^ k * (n + INR k * kp)) in *.
  assert ((a ^ (2 * (K - k)) - 1) * X <= (a ^ (2 * (K - k)) - 1) * Y) by (apply Rmult_le_compat_l; lra).
  assert (EY : Y = a ^ k * n + INR k * a ^ k * kp) by (unfold Y; ring).
  assert (0 <= INR k * a ^ k * kp).
  { apply Rmult_le_pos; auto. apply Rmult_le_pos; [apply pos_INR|apply pow_le; lra]. }
  lra.
Qed.
Lemma level_norm k : (k <= K)%nat ->
  N2 k (rcA chA (K - k)) <= a ^ (2 * K - k) * N2 0 x + 2 * INR K * a ^ (2 * K) * kp.
Proof.
  intros Hk. pose proof (stepg_1 u Hu g) as S1. pose proof (kap_0 u eta Hu Heta g) as K0.
  pose proof (rec_errA u eta A HR Hu Heta g G chA xA (K - k) HA1 ltac:(lia)) as E1.
  replace (K - (K - k))%nat with k in E1 by lia.
  pose proof (shrink_norm k Hk) as E3. pose proof (under_sum k Hk) as E4.
  rewrite (nrm_ext _ _ _ (fun i j => (rcA chA (K - k) i j - apA xA k i j) + apA xA k i j)) by (intros; ring).
  eapply Rle_trans; [apply nrm_triang|].
  assert (P1 : 1 <= a ^ (2 * (K - k))) by (apply pow_R1_Rle; auto).
  set (n := N2 0 x) in *. set (X := N2 k (apA xA k)) in *. set (Y := a ^ k * (n + INR k * kp)) in *.
  assert (a ^ (2 * (K - k)) * X <= a ^ (2 * (K - k)) * Y) by (apply Rmult_le_compat_l; lra).
  assert (0 <= INR k * a ^ k * kp).
  { apply Rmult_le_pos; auto. apply Rmult_le_pos; [apply pos_INR|apply pow_le; lra]. }
  lra.
Qed.
End Geom.
End Round.

(** ** the buffer of the padded signal *)
Section Coarse.
Variable p : params.
Hypothesis HA : accepted p.
Variable k : nat.
Hypothesis Hk : (k <= nsteps p)%nat.
Hypothesis HQ : accepted (coarse p k).
Notation q := (coarse p k).
Notation g := (geom_of p).

Lemma coarse_steps : nsteps q = k.
Proof. unfold nsteps, coarse; cbn [steps]. lia. Qed.
Lemma coarse_1d : is_1d q = is_1d p.
Proof. unfold coarse. unfold is_1d at 1. cbn [shape]. destruct (is_1d p); reflexivity. Qed.
Lemma coarse_rows : drows q = level_rows p 0.
Proof. unfold drows, coarse; cbn [shape]. destruct (is_1d p); lia. Qed.
Lemma coarse_cols : dcols q = level_cols p 0.
Proof. unfold dcols, coarse; cbn [shape]. unfold level_cols. destruct (is_1d p) eqn:E; auto. lia. Qed.
Lemma round_up_multiple n : round_up k (round_up (nsteps p) n) = round_up (nsteps p) n.
Proof.
  unfold round_up. set (z := ((n + 2 ^ nsteps p - 1) / 2 ^ nsteps p)%nat). clearbody z.
  replace (nsteps p) with (k + (nsteps p - k))%nat by lia. rewrite Nat.pow_add_r.
  assert (P : (2 ^ k <> 0)%nat) by (apply Nat.pow_nonzero; lia).
  set (c := (2 ^ k)%nat) in *. set (d := (2 ^ (nsteps p - k))%nat). clearbody c d.
  replace (c * d * z + c - 1)%nat with ((d * z) * c + (c - 1))%nat by nia.
  rewrite Nat.div_add_l by auto. rewrite (Nat.div_small (c - 1)) by lia. lia.
Qed.
Lemma coarse_level_rows s : level_rows q s = level_rows p s.
Proof.
  unfold level_rows at 1. rewrite coarse_steps, coarse_rows. unfold level_rows. rewrite Nat.pow_0_r, Nat.div_1_r.
  rewrite round_up_multiple. reflexivity.
Qed.
Lemma coarse_level_cols s : level_cols q s = level_cols p s.
Proof.
  unfold level_cols at 1. rewrite coarse_steps, coarse_cols, coarse_1d. unfold level_cols.
  destruct (is_1d p); auto. rewrite Nat.pow_0_r, Nat.div_1_r, round_up_multiple. reflexivity.
Qed.
Lemma coarse_geom : same_geom (geom_of p) (geom_of q).
Proof.
  pose proof (hs_level p HA 0) as H1. pose proof (hs_level q HQ 0) as H2.
  pose proof (ws_level p HA 0) as H3. pose proof (ws_level q HQ 0) as H4.
  rewrite hs_0 in H1, H2. rewrite ws_0 in H3, H4 by (apply geom_wf; auto).
  rewrite coarse_level_rows in H2. rewrite coarse_level_cols in H4.
  unfold same_geom. rewrite <- !geom_dim, <- !geom_t by auto.
  repeat split; try congruence.
  pose proof (dim_1d p) as D1. pose proof (dim_1d q) as D2. rewrite coarse_1d in D2.
  pose proof (gdim_cases _ (geom_wf p HA)) as C1. pose proof (gdim_cases _ (geom_wf q HQ)) as C2.
  rewrite <- geom_dim in C1, C2 by auto. rewrite D1 in D2.
  destruct C1 as [C1|C1], C2 as [C2|C2]; rewrite C1, C2 in *; auto; discriminate.
Qed.
Lemma padded_shaped m : shaped q (padded_signal p m).
Proof.
  unfold shaped. rewrite coarse_rows, coarse_cols. split; [|split; reflexivity].
  unfold mwf, padded_signal; cbn [rows cols elts]. rewrite map_length, seq_length. reflexivity.
Qed.
Lemma nearest_twice n N off i : (off + n <= N)%nat ->
  nearest n (Z.of_nat (nearest N (Z.of_nat i - Z.of_nat (offset kBoth N N))) - Z.of_nat off) = nearest n (Z.of_nat i - Z.of_nat off).
Proof.
  intros H. unfold offset. rewrite Nat.sub_diag. change (0 / 2)%nat with 0%nat. unfold nearest. lia.
Qed.
Lemma offset_fit n N : (n <= N)%nat -> (offset kBoth N n + n <= N)%nat.
Proof. intros H. unfold offset. pose proof (Nat.div_mod (N - n) 2 ltac:(lia)). lia. Qed.

Lemma coarse_padf m : shaped p m -> @padf q R exactR (padded_signal p m) = @padf p R exactR m.
Proof.
  intros (W & Rm & Cm). apply functional_extensionality. intros i. apply functional_extensionality. intros j.
  rewrite (padf_padded q HQ) by (rewrite coarse_cols; reflexivity).
  rewrite (padf_padded p HA) by auto. unfold padded_at at 1.
  rewrite coarse_level_rows, coarse_level_cols, coarse_rows, coarse_cols.
  assert (L1 : (drows p <= level_rows p 0)%nat) by (rewrite <- (hs_level p HA), hs_0; apply (drows_le p HA)).
  assert (L2 : (dcols p <= level_cols p 0)%nat) by (rewrite <- (ws_level p HA), ws_0 by (apply geom_wf; auto); apply (dcols_le p HA)).
  set (i' := nearest (level_rows p 0) _). set (j' := nearest (level_cols p 0) _).
  assert (E : padded_at p m i' j' = padded_at p m i j).
  { unfold padded_at, i', j'. rewrite !nearest_twice by (apply offset_fit; auto). reflexivity. }
  rewrite <- E. destruct (Nat.eq_dec (level_rows p 0) 0) as [Z1|Z1].
  { assert (Z2 : elts m = []) by (apply length_zero_iff_nil; rewrite W, Rm; lia).
    unfold padded_at, at_. rewrite Z2. unfold padded_signal. rewrite Z1. cbn [elts cols Nat.mul seq map]. 
    rewrite !nth_overflow; auto; simpl; lia. }
  destruct (Nat.eq_dec (level_cols p 0) 0) as [Z3|Z3].
  { assert (Z2 : elts m = []) by (apply length_zero_iff_nil; rewrite W, Cm; lia).
    unfold padded_at, at_. rewrite Z2. unfold padded_signal. cbn [elts cols]. rewrite Z3, !Nat.mul_0_r. cbn [seq map].
    rewrite !nth_overflow; auto; simpl; lia. }
  assert (B1 : (i' < level_rows p 0)%nat) by (unfold i', nearest; lia).
  assert (B2 : (j' < level_cols p 0)%nat) by (unfold j', nearest; lia).
  clearbody i' j'.
  change (padded_signal p m) with (mk (level_rows p 0) (level_cols p 0) (padded_at p m)).
  apply at_mk; auto.
Qed.

(** the stored approximation *)
Lemma coarse_approx m : shaped p m ->
  exists aa, nth_error (@dec_of q R exactR null_denoiser (padded_signal p m)) (k * bands p) = Some aa /\
    sized (level_rows p k) (level_cols p k) aa /\
    forall i j, (i < level_rows p k)%nat -> (j < level_cols p k)%nat -> at_ aa i j = @ap R exactR g (@padf p R exactR m) k i j.
Proof.
  intros HS. pose proof (@dec_approx R exactR q (padded_signal p m)) as E.
  rewrite (K_nsteps q HQ), coarse_steps in E.
  assert (ES : gspw (geom_of q) = bands p).
  { unfold gspw, bands. rewrite <- (geom_dim q HQ). rewrite <- coarse_1d, dim_1d. reflexivity. }
  rewrite ES in E. eexists. split; [exact E|].
  rewrite coarse_padf by auto. rewrite <- (apm_same g (geom_of q)) by apply coarse_geom.
  unfold apm. rewrite (hs_level p HA), (ws_level p HA). split; [split; [apply mk_wf|auto]|].
  intros i j Hi Hj. apply at_mk; auto.
Qed.
End Coarse.

(** ** the API *)
Section Api.
Variables (u eta d e : R) (A : Arith R).
Hypothesis (HR : rounding u eta A) (Hu : 0 <= u) (Heta : 0 <= eta) (Hd : 0 <= d) (He : 0 <= e).
Variable p : params.
Hypothesis HA : accepted p.
Notation g := (geom_of p).
Variable k : nat.
Hypothesis Hk : (k <= nsteps p)%nat.

Lemma factor_pos : 0 < factor p k.
Proof. unfold factor. apply pow_lt. destruct (is_1d p); [apply sqrt_lt_R0|]; lra. Qed.

Lemma com_elem ch i j : (i < small_rows p k)%nat -> (j < small_cols p k)%nat ->
  at_ (@com_of p R A k ch) i j =
  (fun y => if Nat.ltb 0 k then @ascale R A (length (shape p)) k y else y)
    (@rc R A g ch (gK g - k) (small_row p k i) (small_col p k j)).
Proof.
  intros Hi Hj. unfold com_of, scalem. rewrite (cropfA p HA).
  change (crows p k) with (small_rows p k). change (ccols p k) with (small_cols p k).
  destruct (Nat.ltb 0 k).
  - unfold mk; cbn [rows cols elts]. rewrite map_map.
    change (at_ (mk (small_rows p k) (small_cols p k) (fun i j => ascale (dimension p) k (@rc R A g ch (gK g - k) (offk_r p k + i) (offk_c p k + j)))) i j =
      ascale (length (shape p)) k (@rc R A g ch (gK g - k) (small_row p k i) (small_col p k j))).
    rewrite at_mk by auto. reflexivity.
  - rewrite at_mk by auto. reflexivity.
Qed.
Lemma com_sized ch : sized (small_rows p k) (small_cols p k) (@com_of p R A k ch).
Proof.
  unfold com_of, scalem. rewrite (cropfA p HA). destruct (Nat.ltb 0 k).
  - unfold mk; cbn [rows cols elts]. split; [|split; reflexivity]. unfold mwf; cbn [rows cols elts].
    rewrite !map_length, seq_length. reflexivity.
  - split; [apply mk_wf|]. split; reflexivity.
Qed.

Lemma scaled_elem y : ((0 < k)%nat -> divides d e A p k) -> Rabs ((if Nat.ltb 0 k then @ascale R A (length (shape p)) k y else y) - y / factor p k) <=
  d * Rabs (y / factor p k) + e.
Proof.
  intros HD. destruct (Nat.ltb_spec 0 k) as [H|H]; [apply HD; auto|].
  assert (H0 : k = 0%nat) by lia. unfold factor. rewrite H0. cbn [pow].
  replace (y - y / 1) with 0 by field. rewrite Rabs_R0. apply Rplus_le_le_0_compat; auto.
  apply Rmult_le_pos; auto. apply Rabs_pos.
Qed.

Lemma nrm_abs_sum r c (f h : nat -> nat -> R) (B : R) : 0 <= B ->
  (forall i j, (i < r)%nat -> (j < c)%nat -> Rabs (f i j) <= Rabs (h i j) + B) ->
  nrm r c f <= nrm r c h + sqrt (INR (r * c)) * B.
Proof.
  intros HB H.
  apply Rle_trans with (nrm r c (fun i j => Rabs (h i j) + B)).
  - apply nrm_le_sq; [apply nrm_pos|]. rewrite nrm_sq. apply rsum2_le. intros i j Hi Hj.
    rewrite <- sq_abs. unfold sq. specialize (H i j Hi Hj). pose proof (Rabs_pos (f i j)). apply Rmult_le_compat; auto.
  - eapply Rle_trans; [apply nrm_triang|]. apply Rplus_le_compat.
    + apply Req_le. unfold nrm. f_equal. apply rsum2_ext. intros. apply sq_abs.
    + apply nrm_bound; auto. intros. rewrite Rabs_pos_eq by auto. lra.
Qed.

Lemma preview_near m aa o : shaped p m ->
  (forall i j, (i < level_rows p k)%nat -> (j < level_cols p k)%nat -> at_ aa i j = @ap R exactR g (@padf p R exactR m) k i j) ->
  (forall i j, (i < small_rows p k)%nat -> (j < small_cols p k)%nat ->
     let y := @rc R A g (@dec_of p R A null_denoiser m) (gK g - k) (small_row p k i) (small_col p k j) in
     Rabs (at_ o i j - y / factor p k) <= d * Rabs (y / factor p k) + e) ->
  preview_error p k o aa <= preview_bound u eta d e p k (sqrt (padded_energy p m)).
Proof.
  intros HS Haa Ho. pose proof HS as (_ & _ & Cm). pose proof factor_pos as FP.
  set (ch := @dec_of p R A null_denoiser m).
  set (y := @rc R A g ch (gK g - k)). set (x := @padf p R exactR m).
  assert (HkK : (k <= gK g)%nat) by (rewrite (K_nsteps p HA); auto).
  assert (XA : forall i j, @padf p R A m i j = x i j) by (intros; apply (padf_R u eta A HR)).
  pose proof (level_err u eta A HR Hu Heta g (geom_wf p HA) ch (@padf p R A m) (dec_holdsA A p m)
    (@dec_of p R exactR null_denoiser m) x (dec_holdsA exactR p m) XA k HkK) as E1.
  pose proof (level_norm u eta A HR Hu Heta g (geom_wf p HA) ch (@padf p R A m) (dec_holdsA A p m) x XA k HkK) as E2.
  fold y in E1, E2.
  rewrite <- (underflow_kap u eta p HA), (stepg_gain u p HA) in E1, E2.
  assert (EN : nrm (hs g 0) (ws g 0) x = sqrt (padded_energy p m)) by (rewrite <- (padded_nrm p HA m Cm); reflexivity).
  assert (EG : gain g ^ k = (1 + Q2R (filter_defect (wtype p))) ^ (passes p * k)).
  { rewrite pow_mult. f_equal. rewrite <- stepg_exact, (stepg_gain 0 p HA). unfold step_gain. f_equal. apply pass_gain_0. }
  rewrite EN, EG in E1. rewrite EN in E2. rewrite (K_nsteps p HA) in E1, E2.
  set (n := sqrt (padded_energy p m)) in *. set (U := underflow u eta p) in *.
  unfold preview_bound. fold n U. set (gk := (1 + _) ^ _) in *. set (ak := step_gain u p ^ _) in *.
  set (f := factor p k) in *.
  assert (F1 : (small_row p k 0 + small_rows p k <= hs g k)%nat).
  { rewrite (hs_level p HA). unfold small_row. rewrite Nat.add_0_r. exact (off_fit_r p HA k). }
  assert (F2 : (small_col p k 0 + small_cols p k <= ws g k)%nat).
  { rewrite (ws_level p HA). unfold small_col. rewrite Nat.add_0_r. exact (off_fit_c p HA k). }
  change (preview_error p k ?o ?a) with (nrm (small_rows p k) (small_cols p k)
    (fun i j => at_ o i j - at_ a (small_row p k i) (small_col p k j) / factor p k)).
  fold f.
  assert (SR : forall i, small_row p k i = (small_row p k 0 + i)%nat) by (intros; unfold small_row; lia).
  assert (SC : forall i, small_col p k i = (small_col p k 0 + i)%nat) by (intros; unfold small_col; lia).
  set (z := fun i j => y i j - @ap R exactR g x k i j) in *.
  set (D := fun i j => at_ o i j - y (small_row p k i) (small_col p k j) / f).
  rewrite (nrm_ext _ _ _ (fun i j => D i j + / f * z (small_row p k 0 + i)%nat (small_col p k 0 + j)%nat)).
  2:{ intros i j Hi Hj. unfold D, z. rewrite <- SR, <- SC. rewrite Haa.
      - unfold x. field. lra.
      - rewrite <- (hs_level p HA), SR. lia.
      - rewrite <- (ws_level p HA), SC. lia. }
  eapply Rle_trans; [apply nrm_triang|].
  rewrite nrm_scal. rewrite Rabs_pos_eq by (apply Rlt_le, Rinv_0_lt_compat; auto).
  pose proof (nrm_sub_off (small_rows p k) (small_cols p k) (hs g k) (ws g k) (small_row p k 0) (small_col p k 0) z F1 F2) as B1.
  pose proof (nrm_sub_off (small_rows p k) (small_cols p k) (hs g k) (ws g k) (small_row p k 0) (small_col p k 0) y F1 F2) as B2.
  assert (B3 : nrm (small_rows p k) (small_cols p k) D <=
    nrm (small_rows p k) (small_cols p k) (fun i j => d / f * y (small_row p k 0 + i)%nat (small_col p k 0 + j)%nat)
    + sqrt (INR (small_rows p k * small_cols p k)) * e).
  { apply nrm_abs_sum; auto. intros i j Hi Hj. unfold D.
    eapply Rle_trans; [apply (Ho i j Hi Hj)|]. fold ch y f. apply Req_le. f_equal. rewrite SR, SC.
    unfold Rdiv. rewrite !Rabs_mult, (Rabs_pos_eq d) by auto. ring. }
  rewrite nrm_scal in B3. rewrite (Rabs_pos_eq (d / f)) in B3
    by (apply Rmult_le_pos; [auto|apply Rlt_le, Rinv_0_lt_compat; auto]).
  assert (I0 : 0 <= / f) by (apply Rlt_le, Rinv_0_lt_compat; auto).
  assert (C1 : d / f * nrm (small_rows p k) (small_cols p k) (fun i j => y (small_row p k 0 + i)%nat (small_col p k 0 + j)%nat) <= d / f * (ak * n + U)).
  { apply Rmult_le_compat_l; [apply Rmult_le_pos; auto|]. lra. }
  assert (C2 : / f * nrm (small_rows p k) (small_cols p k) (fun i j => z (small_row p k 0 + i)%nat (small_col p k 0 + j)%nat) <= / f * ((ak - gk) * n + U)).
  { apply Rmult_le_compat_l; auto. lra. }
  eapply Rle_trans; [apply Rplus_le_compat; [eapply Rle_trans; [exact B3|apply Rplus_le_compat_r; exact C1]|exact C2]|].
  apply Req_le. unfold Rdiv. ring.
Qed.

Lemma preview_close m aa : ((0 < k)%nat -> divides d e A p k) -> shaped p m ->
  (forall i j, (i < level_rows p k)%nat -> (j < level_cols p k)%nat -> at_ aa i j = @ap R exactR g (@padf p R exactR m) k i j) ->
  preview_error p k (@com_of p R A k (@dec_of p R A null_denoiser m)) aa <=
  preview_bound u eta d e p k (sqrt (padded_energy p m)).
Proof.
  intros HD HS Haa. apply preview_near; auto. intros i j Hi Hj y. rewrite com_elem by auto. apply scaled_elem; auto.
Qed.

Theorem preview_ok b be data : ((0 < k)%nat -> divides d e A p k) -> accepted (coarse p k) ->
  @reachable R A p b -> @reachable R exactR (coarse p k) be ->
  (1 <= signum p)%Z -> Z.of_nat (length data) = signum p -> Forall (shaped p) data ->
  exists b' out be', @decompose R A b data null_denoiser = Ok (true, b') /\
    @compose R A b' (Z.of_nat k) = Ok (true, out) /\ length out = length data /\
    @decompose R exactR be (map (padded_signal p) data) null_denoiser = Ok (true, be') /\
    forall c m o ch, nth_error data c = Some m -> nth_error out c = Some o -> nth_error (bdec be') c = Some ch ->
      exists a, nth_error ch (k * bands p) = Some a /\
        sized (level_rows p k) (level_cols p k) a /\
        sized (small_rows p k) (small_cols p k) o /\
        preview_error p k o a <= preview_bound u eta d e p k (sqrt (padded_energy p m)).
Proof.
  intros HD HQ Hr Hre Hsig HL HS.
  eexists _, _, _. split; [apply (@dec_okA R A p HA b data); auto|].
  split; [apply (@com_okA R A p HA data k); auto|].
  rewrite map_length. split; auto. split.
  { apply (@dec_okA R exactR (coarse p k) HQ be); auto.
    - rewrite map_length. auto.
    - apply Forall_forall. intros m Hm. apply in_map_iff in Hm as (m' & <- & _). apply padded_shaped; auto. }
  intros c m o ch Hm Ho Hch. cbn [bdec] in Hch. rewrite map_map in Hch.
  rewrite nth_error_map, Hm in Ho, Hch. cbn [option_map] in Ho, Hch.
  assert (HSm : shaped p m) by (rewrite Forall_forall in HS; apply HS; eapply nth_error_In; eauto).
  injection Ho as <-. injection Hch as <-.
  destruct (coarse_approx p HA k Hk HQ m HSm) as (aa & Ha & Hsz & Hel).
  exists aa. split; auto. split; auto. split; [apply com_sized|]. apply preview_close; auto.
Qed.
End Api.
