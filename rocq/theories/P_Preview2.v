(** * P_Preview2: scaled composition in binary32. *)
Require Import List Bool Arith ZArith QArith Qreals Lia Reals Lra Psatz.
Require Import ZifyBool.
Require Import Flocq.Core.Core Flocq.IEEE754.BinarySingleNaN.
Require Import Verif.M_Base Verif.M_Params Verif.M_Padding Verif.M_Wavelet Verif.M_Buffer Verif.M_Real Verif.M_Float Verif.M_Binary32.
Require Import Verif.S_Params Verif.S_Padding Verif.S_Buffer Verif.S_Exact Verif.S_Round Verif.S_Stable Verif.S_Preview.
Require Import Verif.P_Base Verif.P_Wavelet Verif.P_Buffer Verif.P_Impl Verif.P_Api Verif.P_Api2 Verif.P_Float.
Require Import Verif.P_Sum Verif.P_Lin Verif.P_PR Verif.P_L2 Verif.P_Rec Verif.P_Exact Verif.P_Rel Verif.P_Round Verif.P_Round2 Verif.P_Round3.
Require Import Verif.P_Binary32 Verif.P_Bin2 Verif.P_Bin3 Verif.P_Preview.
Import ListNotations.
Open Scope R_scope.

(** ** when the buffer of the padded signal is accepted *)
Lemma round_up_Z K n : Z.of_nat (round_up K n) = (2 ^ Z.of_nat K * ((Z.of_nat n + 2 ^ Z.of_nat K - 1) / 2 ^ Z.of_nat K))%Z.
Proof.
  unfold round_up. rewrite Nat2Z.inj_mul, Nat2Z.inj_pow, Nat2Z.inj_div, Nat2Z.inj_pow.
  assert (0 < 2 ^ K)%nat by (apply Nat.neq_0_lt_0, Nat.pow_nonzero; lia).
  rewrite Nat2Z.inj_sub, Nat2Z.inj_add, Nat2Z.inj_pow by lia. reflexivity.
Qed.
Lemma round_up_range K n : (Z.of_nat n <= Z.of_nat (round_up K n) < Z.of_nat n + 2 ^ Z.of_nat K)%Z.
Proof.
  rewrite round_up_Z. set (P := (2 ^ Z.of_nat K)%Z). assert (0 < P)%Z by (apply Z.pow_pos_nonneg; lia).
  pose proof (Z.div_mod (Z.of_nat n + P - 1) P ltac:(lia)). pose proof (Z.mod_pos_bound (Z.of_nat n + P - 1) P ltac:(lia)). lia.
Qed.
Lemma coarse_accepted p k : accepted p -> Forall (fun n => n <= 2 ^ 62)%Z (shape p) -> (k <= nsteps p)%nat -> accepted (coarse p k).
Proof.
  intros HA HB Hk. pose proof HA as (HP & (HL1 & HL2 & HL3) & Ht & H63).
  destruct HP as (P1 & P2 & P3 & P4 & P5).
  pose proof (acc_steps p HA) as St.
  assert (SIDE : forall n, In n (shape p) ->
     let n' := Z.of_nat (round_up (nsteps p) (Z.to_nat n)) in
     (2 * wtype p <= n' < 2 ^ 63)%Z /\ (wtype p <> 0 -> 2 ^ Z.of_nat k * (2 * wtype p - 1) <= n')%Z).
  { intros n Hin n'. rewrite Forall_forall in HB, HL2, P1. specialize (HB n Hin). specialize (HL2 n Hin). specialize (P1 n Hin).
    cbv beta in *. pose proof (round_up_range (nsteps p) (Z.to_nat n)) as RR. fold n' in RR.
    rewrite Z2Nat.id in RR by lia. unfold nsteps in RR at 1. rewrite Z2Nat.id in RR by lia.
    destruct (Z.eqb_spec (wtype p) 0) as [E|E].
    - rewrite HL3 in RR. change (2 ^ 0)%Z with 1%Z in RR. lia.
    - rewrite Forall_forall in HL3. specialize (HL3 n Hin).
      assert (0 < 2 ^ steps p)%Z by (apply Z.pow_pos_nonneg; lia).
      assert (2 ^ steps p <= n)%Z by nia.
      assert (2 ^ Z.of_nat k <= 2 ^ steps p)%Z by (apply Z.pow_le_mono_r; unfold nsteps in Hk; lia).
      split; [lia|]. intros _. nia. }
  assert (K64 : u64 (Z.of_nat k)) by (unfold u64 in *; unfold nsteps in Hk; lia).
  assert (K0 : wtype p = 0%Z -> Z.of_nat k = 0%Z).
  { intros E. rewrite E in HL3. cbn in HL3. unfold nsteps in Hk. lia. }
  assert (U : forall n, In n (shape p) -> u64 (Z.of_nat (round_up (nsteps p) (Z.to_nat n)))).
  { intros n Hin. destruct (SIDE n Hin) as [[_ H] _]. unfold u64. lia. }
  destruct (acc_cases p HA) as [(n & E & _)|(w & h & E & _)].
  - assert (In n (shape p)) as Hin by (rewrite E; left; auto).
    assert (EC : coarse p k = Params [Z.of_nat (round_up (nsteps p) (Z.to_nat n))] (signum p) (Z.of_nat k) (wtype p)).
    { unfold coarse, level_rows, is_1d, drows. rewrite E. cbn [length Nat.eqb]. rewrite Nat.pow_0_r, Nat.div_1_r. reflexivity. }
    rewrite EC. destruct (SIDE n Hin) as [H1 H2]. specialize (U n Hin).
    unfold accepted, params_rep, legal; cbn [shape signum steps wtype length].
    refine (conj (conj _ (conj _ (conj P3 (conj K64 P5)))) (conj (conj _ (conj _ _)) (conj Ht _))).
    + constructor; auto.
    + unfold u64. lia.
    + left. reflexivity.
    + constructor; auto. cbv beta. lia.
    + destruct (Z.eqb_spec (wtype p) 0); auto.
    + constructor; auto. cbv beta. lia.
  - assert (In w (shape p)) as Hw by (rewrite E; left; auto). assert (In h (shape p)) as Hh by (rewrite E; right; left; auto).
    assert (EC : coarse p k = Params [Z.of_nat (round_up (nsteps p) (Z.to_nat w)); Z.of_nat (round_up (nsteps p) (Z.to_nat h))] (signum p) (Z.of_nat k) (wtype p)).
    { unfold coarse, level_rows, level_cols, is_1d, drows, dcols. rewrite E. cbn [length Nat.eqb]. rewrite Nat.pow_0_r, !Nat.div_1_r. reflexivity. }
    rewrite EC. destruct (SIDE w Hw) as [H1 H2]. destruct (SIDE h Hh) as [H3 H4].
    pose proof (U w Hw) as U1. pose proof (U h Hh) as U2.
    unfold accepted, params_rep, legal; cbn [shape signum steps wtype length].
    refine (conj (conj _ (conj _ (conj P3 (conj K64 P5)))) (conj (conj _ (conj _ _)) (conj Ht _))).
    + constructor; auto.
    + unfold u64. lia.
    + right. reflexivity.
    + constructor; [cbv beta; lia|]. constructor; auto. cbv beta. lia.
    + destruct (Z.eqb_spec (wtype p) 0); auto.
    + constructor; [cbv beta; lia|]. constructor; auto. cbv beta. lia.
Qed.

(** ** binary32 *)
Section Float.
Variable sc : nat -> nat -> f32 -> f32.
Variable p : params.
Hypothesis HA : accepted p.
Notation g := (geom_of p).
Variable k : nat.
Hypothesis Hk : (k <= nsteps p)%nat.
Hypothesis HD : (0 < k)%nat -> divides32 sc p k.
Notation B := (with_division sc).
Notation d23 := (/ 2 ^ 23).
Notation e149 := (/ 2 ^ 149).

Lemma dec_with m : @dec_of p f32 B null_denoiser m = @dec_of p f32 binary32 null_denoiser m.
Proof. reflexivity. Qed.
Lemma rc_with ch it : @rc f32 B g ch it = @rc f32 binary32 g ch it.
Proof. induction it; [reflexivity|]. cbn [rc]. rewrite IHit. reflexivity. Qed.

Section One.
Variable M : mat f32.
Hypothesis HS : shaped p M.
Hypothesis HF : all_finite M.
Hypothesis HE : padded_energy p (values M) <= 2 ^ 220.
Let CH := @dec_of p f32 binary32 null_denoiser M.
Let ch := @dec_of p R A32 null_denoiser (values M).

Lemma scaled32 i j : (i < small_rows p k)%nat -> (j < small_cols p k)%nat ->
  let X := @rc f32 binary32 g CH (gK g - k) (small_row p k i) (small_col p k j) in
  let y := @rc R A32 g ch (gK g - k) (small_row p k i) (small_col p k j) in
  let Y := if Nat.ltb 0 k then sc (length (shape p)) k X else X in
  is_finite Y = true /\ Rabs (B2R Y - y / factor p k) <= d23 * Rabs (y / factor p k) + e149.
Proof.
  intros Hi Hj X y Y.
  assert (HkK : (k <= gK g)%nat) by (rewrite (K_nsteps p HA); auto).
  assert (V : vle 112 X y).
  { apply (rc_rel p HA M HS HF HE (gK g - k) ltac:(lia)).
    - replace (gK g - (gK g - k))%nat with k by lia. rewrite (hs_level p HA). apply (off_in_r p HA k i Hi).
    - replace (gK g - (gK g - k))%nat with k by lia. rewrite (ws_level p HA). apply (off_in_c p HA k j Hj). }
  destruct V as [[VF VR] VB].
  unfold Y. destruct (Nat.ltb_spec 0 k) as [H|H].
  - rewrite <- VR. apply HD; auto. rewrite VR. eapply Rle_trans; [exact VB|].
    apply Rle_trans with (bp 120); [apply bpow_le; lia|]. rewrite (pow_IZR 2 120). apply Rle_refl.
  - split; auto. assert (H0 : k = 0%nat) by lia. replace (factor p k) with 1 by (unfold factor; rewrite H0; reflexivity). rewrite VR.
    replace (y - y / 1) with 0 by field. rewrite Rabs_R0. apply Rplus_le_le_0_compat.
    + apply Rmult_le_pos; [|apply Rabs_pos]. apply Rlt_le, Rinv_0_lt_compat, pow_lt. lra.
    + apply Rlt_le, Rinv_0_lt_compat, pow_lt. lra.
Qed.

Lemma com_with : @com_of p f32 B k CH = mk (small_rows p k) (small_cols p k) (fun i j =>
  (fun X => if Nat.ltb 0 k then sc (length (shape p)) k X else X)
    (@rc f32 binary32 g CH (gK g - k) (small_row p k i) (small_col p k j))).
Proof.
  unfold com_of, scalem. rewrite rc_with. rewrite (cropfA p HA).
  change (crows p k) with (small_rows p k). change (ccols p k) with (small_cols p k).
  destruct (Nat.ltb 0 k); [|reflexivity].
  unfold mk; cbn [rows cols elts]. rewrite map_map. reflexivity.
Qed.

Lemma preview32 aa :
  (forall i j, (i < level_rows p k)%nat -> (j < level_cols p k)%nat -> at_ aa i j = @ap R exactR g (@padf p R exactR (values M)) k i j) ->
  let O := @com_of p f32 B k (@dec_of p f32 B null_denoiser M) in
  sized (small_rows p k) (small_cols p k) O /\ all_finite O /\
  preview_error p k (values O) aa <= preview_bound u32 eta32 d23 e149 p k (sqrt (padded_energy p (values M))).
Proof.
  intros Haa O. unfold O. rewrite dec_with. fold CH. rewrite com_with.
  destruct (values_mk (small_rows p k) (small_cols p k) (fun i j =>
    (fun X => if Nat.ltb 0 k then sc (length (shape p)) k X else X)
    (@rc f32 binary32 g CH (gK g - k) (small_row p k i) (small_col p k j))) (fun i j => B2R (
    (fun X => if Nat.ltb 0 k then sc (length (shape p)) k X else X)
    (@rc f32 binary32 g CH (gK g - k) (small_row p k i) (small_col p k j))))) as [V F].
  { intros i j Hi Hj. split; [|reflexivity]. apply (scaled32 i j Hi Hj). }
  split; [split; [apply mk_wf|split; reflexivity]|]. split; [exact F|].
  rewrite V. apply (preview_near u32 eta32 d23 e149 A32 A32_rounding u32_pos eta32_pos).
  - apply Rlt_le, Rinv_0_lt_compat, pow_lt; lra.
  - apply Rlt_le, Rinv_0_lt_compat, pow_lt; lra.
  - exact HA.
  - exact Hk.
  - destruct HS as (W & Rm & Cm). split; [|split; auto].
    unfold mwf, values; cbn [rows cols elts]. rewrite map_length. exact W.
  - exact Haa.
  - intros i j Hi Hj y. rewrite at_mk by auto. apply (scaled32 i j Hi Hj).
Qed.
End One.

Theorem preview_binary32 b be data : accepted (coarse p k) ->
  @reachable f32 B p b -> @reachable R exactR (coarse p k) be ->
  (1 <= signum p)%Z -> Z.of_nat (length data) = signum p -> Forall (shaped p) data ->
  Forall all_finite data -> Forall (fun m => padded_energy p (values m) <= 2 ^ 220) data ->
  exists b' out be', @decompose f32 B b data null_denoiser = Ok (true, b') /\
    @compose f32 B b' (Z.of_nat k) = Ok (true, out) /\ length out = length data /\
    @decompose R exactR be (map (fun m => padded_signal p (values m)) data) null_denoiser = Ok (true, be') /\
    forall c m o ch, nth_error data c = Some m -> nth_error out c = Some o -> nth_error (bdec be') c = Some ch ->
      exists a, nth_error ch (k * bands p) = Some a /\
        sized (level_rows p k) (level_cols p k) a /\
        sized (small_rows p k) (small_cols p k) o /\ all_finite o /\
        preview_error p k (values o) a <= preview_bound u32 eta32 d23 e149 p k (sqrt (padded_energy p (values m))).
Proof.
  intros HQ Hr Hre Hsig HL HS HF HE.
  eexists _, _, _. split; [apply (@dec_okA f32 B p HA b data); auto|].
  split; [apply (@com_okA f32 B p HA data k); auto|].
  rewrite map_length. split; auto. split.
  { apply (@dec_okA R exactR (coarse p k) HQ be); auto.
    - rewrite map_length. auto.
    - apply Forall_forall. intros m Hm. apply in_map_iff in Hm as (m' & <- & _). apply padded_shaped; auto. }
  intros c m o ch Hm Ho Hch. cbn [bdec] in Hch. rewrite map_map in Hch.
  rewrite nth_error_map, Hm in Ho, Hch. cbn [option_map] in Ho, Hch.
  apply nth_error_In in Hm as Hin. rewrite Forall_forall in HS, HF, HE.
  injection Ho as <-. injection Hch as <-.
  assert (HSv : shaped p (values m)).
  { destruct (HS m Hin) as (W & Rm & Cm). split; [|split; auto].
    unfold mwf, values; cbn [rows cols elts]. rewrite map_length. exact W. }
  destruct (coarse_approx p HA k Hk HQ (values m) HSv) as (aa & Ha & Hsz & Hel).
  exists aa. split; auto. split; auto. apply preview32; auto.
Qed.
End Float.
