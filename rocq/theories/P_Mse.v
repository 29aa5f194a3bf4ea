(** * P_Mse: Distance and the squared difference of the signals. *)
Require Import List Bool Arith ZArith QArith Qreals Lia Reals Lra Psatz.
Require Import ZifyBool.
Require Import Verif.M_Base Verif.M_Params Verif.M_Padding Verif.M_Wavelet Verif.M_Buffer Verif.M_Real Verif.M_Metrics.
Require Import Verif.S_Params Verif.S_Padding Verif.S_Buffer Verif.S_Exact Verif.S_Metrics Verif.S_Round Verif.S_Stable Verif.S_Mse.
Require Import Verif.P_Base Verif.P_Wavelet Verif.P_Buffer Verif.P_Impl Verif.P_Api Verif.P_Api2.
Require Import Verif.P_Sum Verif.P_Lin Verif.P_PR Verif.P_L2 Verif.P_Rec Verif.P_Exact Verif.P_Rel Verif.P_Round Verif.P_Round2 Verif.P_Round3.
Require Import Verif.P_Stable Verif.P_Stable2 Verif.P_Acc Verif.P_Metrics.
Import ListNotations.
Open Scope R_scope.

Section Mse.
Variable p : params.
Hypothesis HA : accepted p.

Lemma channel_diff_energy x y : shaped p x -> shaped p y ->
  sum_sq_diff (concat (map (@elts R) (dec_of p null_denoiser x))) (concat (map (@elts R) (dec_of p null_denoiser y)))
  = channel_energy (dec_of p null_denoiser (mdiff x y)).
Proof.
  intros HX HY. destruct (mdiff_shaped p x y HX HY) as (HZ & HC).
  assert (LX : length (dec_of p null_denoiser x) = length (dec_of p null_denoiser y)) by (unfold dec_of; rewrite !dec_pure_length; auto).
  assert (LZ : length (dec_of p null_denoiser (mdiff x y)) = length (dec_of p null_denoiser y)) by (unfold dec_of; rewrite !dec_pure_length; auto).
  pose proof (dec_lin p HA 1 (-1) x y (mdiff x y)) as HL.
  assert (G : forall X Y Z : list (mat R), length X = length Y -> length Z = length Y ->
    (forall k sx sy sz, nth_error X k = Some sx -> nth_error Y k = Some sy -> nth_error Z k = Some sz ->
       mwf sx /\ mwf sy /\ combines 1 (-1) sx sy sz) ->
    sum_sq_diff (concat (map (@elts R) X)) (concat (map (@elts R) Y)) = channel_energy Z).
  { clear. induction X as [|x X IH]; intros [|y Y] [|z Z] L1 L2 H; simpl in *; try discriminate; auto.
    destruct (H 0%nat x y z eq_refl eq_refl eq_refl) as (W & W' & H1 & H2 & H3 & H4 & H5).
    assert (length (elts x) = length (elts y)) by (unfold mwf in *; congruence).
    rewrite sum_sq_app by auto. rewrite (IH Y Z) by (auto; intros k; apply (H (S k))). f_equal.
    unfold energy. rewrite H5. apply sum_sq_energy; auto. }
  apply G; auto. intros k sx sy sz Ex Ey Ez. split; [|split; [|eapply HL; eauto]].
  - apply (has_layout_wf p (dec_of p null_denoiser x) k); auto. apply dec_of_layout; auto. apply null_keeps.
  - apply (has_layout_wf p (dec_of p null_denoiser y) k); auto. apply dec_of_layout; auto. apply null_keeps.
Qed.

Lemma padded_gap x y : shaped p x -> shaped p y ->
  padded_energy p (mdiff x y) = padded_error p x y * padded_error p x y.
Proof.
  intros HX HY. destruct (mdiff_shaped p x y HX HY) as (HZ & HC).
  unfold padded_error, padded_energy.
  assert (E : forall i j, (i < level_rows p 0)%nat -> (j < level_cols p 0)%nat ->
     padded_at p (mdiff x y) i j = padded_at p x i j - padded_at p y i j).
  { intros i j Hi Hj.
    pose proof (proj2 (proj2 HX)). pose proof (proj2 (proj2 HY)). pose proof (proj2 (proj2 HZ)).
    rewrite <- !(padf_padded p HA) by auto.
    rewrite (padf_lin p 1 (-1) x y (mdiff x y)) by auto. ring. }
  rewrite sqrt_sqrt.
  - apply rsum_ext. intros i Hi. apply rsum_ext. intros j Hj. rewrite E by auto. reflexivity.
  - apply rsum_nonneg. intros i Hi. apply rsum_nonneg. intros j Hj.
    pose proof (Rle_0_sqr (padded_at p x i j - padded_at p y i j)). unfold Rsqr in *. lra.
Qed.
Lemma channel_both x y : shaped p x -> shaped p y ->
  let X := sum_sq_diff (concat (map (@elts R) (dec_of p null_denoiser x))) (concat (map (@elts R) (dec_of p null_denoiser y))) in
  sqrt X <= gain_exact p * padded_error p x y /\ (1 - rel_err p) * padded_error p x y <= gain_exact p * sqrt X.
Proof.
  intros HX HY. cbv zeta. rewrite channel_diff_energy by auto. destruct (mdiff_shaped p x y HX HY) as (HZ & HC).
  pose proof (dec_energy 0 0 exactR exact_rounding (Rle_refl 0) (Rle_refl 0) p HA (mdiff x y) HZ) as U.
  pose proof (dec_energy_lower 0 0 exactR exact_rounding (Rle_refl 0) (Rle_refl 0) p HA (mdiff x y) HZ) as L.
  rewrite float_rel_0, underflow_0 in *. rewrite step_gain_0 in *. fold (gain_exact p) in *.
  rewrite (padded_gap x y) in * by auto. rewrite sqrt_square in * by apply sqrt_pos. split; lra.
Qed.

Lemma sum_sq_pos l l' : 0 <= sum_sq_diff l l'.
Proof.
  unfold sum_sq_diff. induction (combine l l') as [|(a, c) r IH]; simpl; [lra|].
  pose proof (Rle_0_sqr (a - c)). unfold Rsqr in *. lra.
Qed.
Lemma signal_gap_pos d1 d2 : 0 <= signal_gap p d1 d2.
Proof.
  revert d2. induction d1 as [|x r IH]; intros [|y r2]; simpl; try lra. pose proof (IH r2).
  pose proof (Rle_0_sqr (padded_error p x y)). unfold Rsqr in *. lra.
Qed.
Lemma gain_nonneg : 0 <= gain_exact p.
Proof.
  pose proof (gain_exact_1 p). lra.
Qed.

Lemma signals_both d1 d2 : length d1 = length d2 -> Forall (shaped p) d1 -> Forall (shaped p) d2 ->
  let X := sum_sq_diff (all_values (Buffer p (map (dec_of p null_denoiser) d1))) (all_values (Buffer p (map (dec_of p null_denoiser) d2))) in
  X <= gain_exact p * gain_exact p * signal_gap p d1 d2 /\
  (0 <= 1 - rel_err p -> (1 - rel_err p) * (1 - rel_err p) * signal_gap p d1 d2 <= gain_exact p * gain_exact p * X).
Proof.
  cbv zeta. unfold all_values; cbn [bdec]. rewrite !map_map.
  revert d2; induction d1 as [|x d1 IH]; intros [|y d2] HL S1 S2; try discriminate.
  { cbn. split; intros; rewrite ?Rmult_0_r; lra. }
  inversion S1 as [|? ? Sx Sd1]; inversion S2 as [|? ? Sy Sd2]; subst. cbn [map concat signal_gap].
  rewrite !sum_sq_app.
  2:{ assert (SS : same_sizes (Buffer p [dec_of p null_denoiser x]) (Buffer p [dec_of p null_denoiser y])).
      { apply (layouts_same p); auto; cbn [bdec]; (constructor; [|constructor]); apply dec_of_layout; auto; apply null_keeps. }
      apply same_sizes_len in SS. unfold all_values in SS. cbn [bdec map concat] in SS. rewrite !app_nil_r in SS. exact SS. }
  destruct (IH d2) as [U L]; auto. clear IH.
  destruct (channel_both x y Sx Sy) as [U1 L1]. cbv zeta in U1, L1.
  set (X1 := sum_sq_diff (concat (map (@elts R) (dec_of p null_denoiser x))) _) in *.
  match goal with |- context [X1 + ?t] => set (X2 := t) in * end.
  assert (P1 : 0 <= X1) by apply sum_sq_pos.
  pose proof (sqrt_pos X1) as Q1. pose proof (sqrt_sqrt X1 P1) as Q2. 
  assert (Q3 : 0 <= padded_error p x y) by apply sqrt_pos. pose proof gain_nonneg as G0.
  set (s := sqrt X1) in *. set (e := padded_error p x y) in *. set (G := gain_exact p) in *.
  split.
  - assert (s * s <= (G * e) * (G * e)) by (apply Rmult_le_compat; auto). lra.
  - intros H. specialize (L H).
    assert (0 <= (1 - rel_err p) * e) by (apply Rmult_le_pos; auto).
    assert (((1 - rel_err p) * e) * ((1 - rel_err p) * e) <= (G * s) * (G * s)) by (apply Rmult_le_compat; auto).
    replace (G * s * (G * s)) with (G * G * (s * s)) in H1 by ring. rewrite Q2 in H1. lra.
Qed.

Theorem distance_rms b1 b2 d1 d2 b1' b2' : small_shape p -> reachable p b1 -> reachable p b2 ->
  Z.of_nat (length d1) = signum p -> Z.of_nat (length d2) = signum p ->
  Forall (shaped p) d1 -> Forall (shaped p) d2 ->
  decompose b1 d1 null_denoiser = Ok (true, b1') -> decompose b2 d2 null_denoiser = Ok (true, b2') ->
  exists D, distance b1' b2' = Ok (Num D) /\ 0 <= D /\
    sqrt D <= gain_exact p * sqrt (signal_gap p d1 d2 / IZR (samples p)) /\
    (1 - rel_err p) * sqrt (signal_gap p d1 d2 / IZR (samples p)) <= gain_exact p * sqrt D.
Proof.
  intros HS R1 R2 L1 L2 S1 S2 D1 D2.
  assert (Hs : (1 <= signum p)%Z) by apply HS.
  assert (HN : 0 < IZR (samples p)).
  { apply IZR_lt. destruct HS as (HP & _). unfold samples. pose proof (prod_pos (shape p) HP) as Hq. fold (channel_samples p) in Hq. nia. }
  rewrite (dec_ok p HA) in D1, D2 by auto. inversion D1; inversion D2; subst b1' b2'; clear D1 D2.
  eexists. split.
  { rewrite (distance_value _ _ p); auto; [repeat split|].
    apply (layouts_same p); cbn [bdec]; rewrite ?map_length; [lia| |];
      apply Forall_forall; intros ch Hc; apply in_map_iff in Hc as (m & <- & _); apply dec_of_layout; auto; apply null_keeps. }
  destruct (signals_both d1 d2) as [U L]; auto; [lia|]. cbv zeta in U, L.
  set (X := sum_sq_diff _ _) in *. set (n := IZR (samples p)) in *. set (E := signal_gap p d1 d2) in *.
  assert (PX : 0 <= X) by apply sum_sq_pos. assert (PE : 0 <= E) by apply signal_gap_pos. pose proof gain_nonneg as G0.
  set (G := gain_exact p) in *.
  assert (IN : 0 < / n) by (apply Rinv_0_lt_compat; auto).
  assert (DX : 0 <= X / n) by (apply Rmult_le_pos; lra).
  assert (DE : 0 <= E / n) by (apply Rmult_le_pos; lra).
  split; auto.
  assert (K : forall g a, 0 <= g -> g * sqrt a = sqrt (g * g * a)).
  { intros g a Hg. rewrite sqrt_mult_alt by (apply Rmult_le_pos; auto). rewrite sqrt_square; auto. }
  split.
  - rewrite (K G) by auto. apply sqrt_le_1_alt. unfold Rdiv. rewrite <- Rmult_assoc.
    apply Rmult_le_compat_r; lra.
  - destruct (Rle_dec 0 (1 - rel_err p)) as [H|H].
    + rewrite !K by auto. apply sqrt_le_1_alt. unfold Rdiv. rewrite <- !Rmult_assoc.
      apply Rmult_le_compat_r; [lra|]. apply L; auto.
    + pose proof (sqrt_pos (E / n)). pose proof (sqrt_pos (X / n)).
      assert (0 <= G * sqrt (X / n)) by (apply Rmult_le_pos; auto).
      assert ((1 - rel_err p) * sqrt (E / n) <= 0 * sqrt (E / n)) by (apply Rmult_le_compat_r; lra). lra.
Qed.

(** with numbers *)
Lemma gain_rel : gain_exact p * gain_exact p = 1 + rel_err p.
Proof.
  unfold gain_exact, rel_err, passes. rewrite <- pow_add.
  replace (2 * (if is_1d p then 1 else 2) * nsteps p)%nat with ((if is_1d p then 1 else 2) * nsteps p + (if is_1d p then 1 else 2) * nsteps p)%nat by lia. ring.
Qed.
Theorem distance_mean_squared b1 b2 d1 d2 b1' b2' : small_shape p -> reachable p b1 -> reachable p b2 ->
  Z.of_nat (length d1) = signum p -> Z.of_nat (length d2) = signum p ->
  Forall (shaped p) d1 -> Forall (shaped p) d2 ->
  decompose b1 d1 null_denoiser = Ok (true, b1') -> decompose b2 d2 null_denoiser = Ok (true, b2') ->
  exists D, distance b1' b2' = Ok (Num D) /\ 0 <= D /\
    Rabs (sqrt D - sqrt (signal_gap p d1 d2 / IZR (samples p))) <= 7 / 10 ^ 8 * sqrt (signal_gap p d1 d2 / IZR (samples p)).
Proof.
  intros HS R1 R2 L1 L2 S1 S2 D1 D2.
  destruct (distance_rms b1 b2 d1 d2 b1' b2' HS R1 R2 L1 L2 S1 S2 D1 D2) as (D & E & P & U & L).
  exists D. split; auto. split; auto. 
  assert (H : rel_err p <= 3 / 10 ^ 8).
  { destruct (Z.eq_dec (wtype p) 0) as [E0|E0]; [|apply (rel_err_small p HA E0)].
    unfold rel_err. rewrite E0. cbn [filter_defect]. rewrite RMicromega.Q2R_0, Rplus_0_r, pow1. lra. }
  pose proof gain_rel as G. pose proof (gain_exact_1 p) as G1.
  set (g := gain_exact p) in *. set (q := sqrt (signal_gap p d1 d2 / IZR (samples p))) in *.
  assert (0 <= q) by apply sqrt_pos. pose proof (sqrt_pos D) as P'. set (s := sqrt D) in *.
  assert (G2 : g <= 1 + 3 / 10 ^ 8) by nra.
  assert (s <= (1 + 3 / 10 ^ 8) * q) by (eapply Rle_trans; [apply U|]; apply Rmult_le_compat_r; lra).
  assert ((1 - 3 / 10 ^ 8) * q <= (1 + 3 / 10 ^ 8) * s).
  { apply Rle_trans with ((1 - rel_err p) * q); [apply Rmult_le_compat_r; lra|]. eapply Rle_trans; [apply L|]. apply Rmult_le_compat_r; lra. }
  apply Rabs_le. lra.
Qed.
End Mse.
