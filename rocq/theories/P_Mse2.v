(** * P_Mse2: Distance and the squared difference of the signals, in floats. *)
Require Import List Bool Arith ZArith QArith Qreals Lia Reals Lra Psatz.
Require Import ZifyBool.
Require Import Flocq.Core.Core Flocq.IEEE754.BinarySingleNaN.
Require Import Verif.M_Base Verif.M_Params Verif.M_Padding Verif.M_Wavelet Verif.M_Buffer Verif.M_Real Verif.M_Float Verif.M_Binary32 Verif.M_Metrics Verif.M_MetricsF.
Require Import Verif.S_Params Verif.S_Padding Verif.S_Buffer Verif.S_Exact Verif.S_Metrics Verif.S_MetricsF Verif.S_Round Verif.S_Stable Verif.S_Mse.
Require Import Verif.P_Base Verif.P_Params Verif.P_Wavelet Verif.P_Buffer Verif.P_Impl Verif.P_Api Verif.P_Api2.
Require Import Verif.P_Sum Verif.P_Lin Verif.P_PR Verif.P_L2 Verif.P_Rec Verif.P_Exact Verif.P_Rel Verif.P_Round Verif.P_Round2 Verif.P_Round3.
Require Import Verif.P_Float Verif.P_Binary32 Verif.P_Bin2 Verif.P_Bin3.
Require Import Verif.P_Stable Verif.P_Stable2 Verif.P_Acc Verif.P_Acc2 Verif.P_BinMove Verif.P_BinMove2 Verif.P_Metrics Verif.P_MetricsF5 Verif.P_Mse.
Import ListNotations.
Open Scope R_scope.

Lemma gap_sum_sq l l' : gap l l' = sum_sq_diff l l'.
Proof.
  revert l'. induction l as [|x l IH]; intros [|y l']; cbn; auto. rewrite IH. unfold sum_sq_diff. ring.
Qed.
Lemma distance2_sum_sq ch ch' :
  Forall2 (fun m m' : mat R => mwf m /\ mwf m' /\ rows m = rows m' /\ cols m = cols m') ch ch' ->
  sum_sq_diff (concat (map (@elts R) ch)) (concat (map (@elts R) ch')) = distance2 ch ch'.
Proof.
  induction 1 as [|m m' ch ch' (W & W' & E1 & E2) H IH]; [reflexivity|]. cbn [map concat distance2].
  rewrite sum_sq_app by (unfold mwf in *; congruence). rewrite IH, gap_sum_sq. reflexivity.
Qed.
Lemma buffers_sum_sq b b' : same_sizes b b' ->
  sum_sq_diff (all_values b) (all_values b') =
  fold_right (fun u s => distance2 (fst u) (snd u) + s) 0 (combine (bdec b) (bdec b')).
Proof.
  unfold same_sizes, all_values. induction 1 as [|ch ch' l l' H HF IH]; [reflexivity|]. cbn [map concat combine fold_right fst snd].
  rewrite sum_sq_app; [rewrite IH, (distance2_sum_sq ch ch') by auto; reflexivity|].
  clear -H. induction H as [|m m' ch ch' (W & W' & E1 & E2) H IH]; [reflexivity|]. cbn [map concat]. rewrite !app_length, IH.
  unfold mwf in *. congruence.
Qed.

Section F.
Variable p : params.
Hypothesis HA : accepted p.

Definition vbuf (b : buffer f32) : buffer R := Buffer p (map (map values) (bdec b)).
Lemma vbuf_values b : all_values (vbuf b) = values32 b.
Proof.
  unfold all_values, values32, vbuf. cbn [bdec]. rewrite map_map. f_equal. apply map_ext. intros ch.
  rewrite map_map. reflexivity.
Qed.

(** the stored values and those of exact arithmetic *)
Lemma stored_gap b be data b' be' : @reachable f32 binary32 p b -> @reachable R exactR p be ->
  (1 <= signum p)%Z -> Z.of_nat (length data) = signum p -> Forall (shaped p) data ->
  Forall all_finite data -> Forall (fun m => padded_energy p (values m) <= 2 ^ 220) data ->
  @decompose f32 binary32 b data null_denoiser = Ok (true, b') ->
  @decompose R exactR be (map values data) null_denoiser = Ok (true, be') ->
  bpar b' = p /\ bpar be' = p /\ length (bdec b') = length data /\ length (bdec be') = length data /\
  Forall (has_layout p) (bdec b') /\ Forall (has_layout p) (bdec (vbuf b')) /\ Forall (has_layout p) (bdec be') /\
  Forall (Forall all_finite) (bdec b') /\
  sum_sq_diff (all_values (vbuf b')) (all_values be') <= rounding_gap u32 eta32 p (map values data).
Proof.
  intros Hr Hre Hs HL HS HF HE D De.
  assert (HSv : Forall (shaped p) (map values data)).
  { rewrite Forall_forall in *. intros m Hin. apply in_map_iff in Hin as (m' & <- & Hin). apply shaped_values; auto. }
  destruct (accurate_binary32 p HA b be data Hr Hre Hs HL HS HF HE) as (b2 & be2 & E & Ee & L & H).
  assert (X1 : b2 = b') by congruence. assert (X2 : be2 = be') by congruence. subst b2 be2. clear E Ee.
  rewrite (@dec_okA f32 binary32 p HA b data) in D by auto.
  rewrite (@dec_okA R exactR p HA be (map values data)) in De by (auto; rewrite map_length; auto).
  inversion D; inversion De; subst b' be'; clear D De. cbn [bpar bdec] in *.
  assert (LY : Forall (has_layout p) (map (@dec_of p f32 binary32 null_denoiser) data)).
  { apply Forall_forall; intros ch Hc; apply in_map_iff in Hc as (m & <- & Hin). apply dec_of_layout; auto. apply null_keepsA. }
  assert (LV : Forall (has_layout p) (bdec (vbuf (Buffer p (map (@dec_of p f32 binary32 null_denoiser) data))))).
  { cbn [vbuf bdec]. apply Forall_forall. intros ch Hc. apply in_map_iff in Hc as (c & <- & Hin). apply values_layout; auto.
    rewrite Forall_forall in LY. auto. }
  assert (LE : Forall (has_layout p) (map (@dec_of p R exactR null_denoiser) (map values data))).
  { apply Forall_forall; intros ch Hc; apply in_map_iff in Hc as (m & <- & Hin). apply dec_of_layout; auto. apply null_keepsA. }
  rewrite !map_length.
  split; auto. split; auto. split; auto. split; auto. split; auto. split; auto. split; auto. split.
  { apply Forall_forall; intros ch Hc. apply In_nth_error in Hc as (c & Hc).
    rewrite nth_error_map in Hc. destruct (nth_error data c) as [m|] eqn:Hm; [|discriminate].
    apply (H c m ch (@dec_of p R exactR null_denoiser (values m)) Hm).
    - rewrite nth_error_map, Hm. exact Hc.
    - rewrite !nth_error_map, Hm. reflexivity. }
  rewrite buffers_sum_sq.
  2:{ apply (layouts_same p); cbn [bdec]; auto. cbn [vbuf bdec]. rewrite !map_length. reflexivity. }
  cbn [vbuf bdec]. 
  assert (HH : Forall (fun m => sqrt (distance2 (@dec_of p R exactR null_denoiser (values m)) (map values (@dec_of p f32 binary32 null_denoiser m)))
     <= accuracy u32 eta32 p (sqrt (padded_energy p (values m)))) data).
  { apply Forall_forall. intros m Hin. apply In_nth_error in Hin as (c & Hm).
    apply (H c m (@dec_of p f32 binary32 null_denoiser m) (@dec_of p R exactR null_denoiser (values m)) Hm).
    - rewrite nth_error_map, Hm. reflexivity.
    - rewrite !nth_error_map, Hm. reflexivity. }
  clear -HH. induction HH as [|m data Hm HH IH]; cbn [map combine fold_right rounding_gap fst snd]; [lra|].
  apply Rplus_le_compat; auto.
  set (X := distance2 _ _) in *. set (Y := distance2 (map values _) _) in *. set (a := accuracy _ _ _ _) in *.
  assert (E : Y = X). { clear. subst X Y. generalize (@dec_of p R exactR null_denoiser (values m)). generalize (map values (@dec_of p f32 binary32 null_denoiser m)).
    induction l as [|x l IH]; intros [|y l']; auto. cbn [distance2]. rewrite IH, !gap_sum_sq, sum_sq_sym. reflexivity. }
  rewrite E. assert (P : 0 <= X) by (rewrite <- E; clear; subst Y; generalize (map values (@dec_of p f32 binary32 null_denoiser m)), (@dec_of p R exactR null_denoiser (values m)); induction l as [|x l IH]; intros [|y l']; cbn [distance2]; try lra; pose proof (IH l'); rewrite gap_sum_sq; pose proof (sum_sq_pos (elts x) (elts y)); lra).
  rewrite <- (sqrt_sqrt X P). pose proof (sqrt_pos X). apply Rmult_le_compat; auto.
Qed.

Lemma reachable_ex : exists b, @reachable R exactR p b.
Proof.
  destruct HA as (H1 & H2 & H3 & _). eexists. apply reach_new. apply P_Params.new_buffer_legal; auto. lia.
Qed.

(** the root mean squared difference of what is stored *)
Lemma stored_rms (b1 b2 : buffer f32) (d1 d2 : list (mat f32)) b1' b2' : small_shape p -> reachable p b1 -> reachable p b2 ->
  Z.of_nat (length d1) = signum p -> Z.of_nat (length d2) = signum p ->
  Forall (shaped p) d1 -> Forall (shaped p) d2 -> Forall all_finite d1 -> Forall all_finite d2 ->
  Forall (fun m => padded_energy p (values m) <= 2 ^ 220) d1 -> Forall (fun m => padded_energy p (values m) <= 2 ^ 220) d2 ->
  decompose b1 d1 null_denoiser = Ok (true, b1') -> decompose b2 d2 null_denoiser = Ok (true, b2') ->
  let n := IZR (samples p) in
  let rms := sqrt (signal_gap p (map values d1) (map values d2) / n) in
  let v := sqrt (sum_sq_diff (values32 b1') (values32 b2') / n) in
  0 < n /\ bpar b1' = p /\ bpar b2' = p /\ same_sizes32 b1' b2' /\ finite_buffer b1' /\ finite_buffer b2' /\
  Rabs (v - rms) <= 7 / 10 ^ 8 * rms + sqrt (rounding_gap u32 eta32 p (map values d1) / n) + sqrt (rounding_gap u32 eta32 p (map values d2) / n).
Proof.
  intros HS R1 R2 L1 L2 S1 S2 F1 F2 E1 E2 D1 D2 n rms v.
  assert (Hs : (1 <= signum p)%Z) by apply HS.
  assert (HN : 0 < n).
  { apply IZR_lt. destruct HS as (HP & _). unfold samples. pose proof (prod_pos (shape p) HP) as Hq. fold (channel_samples p) in Hq. nia. }
  assert (SV : forall d, Forall (shaped p) d -> Forall (shaped p) (map values d)).
  { intros d Hd. rewrite Forall_forall in *. intros m Hin. apply in_map_iff in Hin as (m' & <- & Hin). apply shaped_values; auto. }
  destruct reachable_ex as (b0 & R0).
  assert (LV : forall d : list (mat f32), Z.of_nat (length d) = signum p -> Z.of_nat (length (map values d)) = signum p) by (intros; rewrite map_length; auto).
  pose proof (@dec_okA R exactR p HA b0 (map values d1) R0 Hs (LV d1 L1) (SV d1 S1)) as X1.
  pose proof (@dec_okA R exactR p HA b0 (map values d2) R0 Hs (LV d2 L2) (SV d2 S2)) as X2.
  set (e1 := Buffer p (map (dec_of p null_denoiser) (map values d1))) in *.
  set (e2 := Buffer p (map (dec_of p null_denoiser) (map values d2))) in *.
  destruct (stored_gap b1 b0 d1 b1' e1) as (P1 & Pe1 & Ln1 & Le1 & Ly1 & Lv1 & Lx1 & Fi1 & G1); auto.
  destruct (stored_gap b2 b0 d2 b2' e2) as (P2 & Pe2 & Ln2 & Le2 & Ly2 & Lv2 & Lx2 & Fi2 & G2); auto.
  split; auto. split; auto. split; auto.
  assert (LD : length d1 = length d2) by lia.
  assert (LA : length (bdec (vbuf b1')) = length d1) by (cbn [vbuf bdec]; rewrite map_length; exact Ln1).
  assert (LB : length (bdec (vbuf b2')) = length d2) by (cbn [vbuf bdec]; rewrite map_length; exact Ln2).
  assert (LS : forall x y : buffer R, length (bdec x) = length (bdec y) -> Forall (has_layout p) (bdec x) -> Forall (has_layout p) (bdec y) -> same_sizes x y) by exact (layouts_same p).
  assert (SS : same_sizes (vbuf b1') (vbuf b2')).
  { apply LS; auto. congruence. }
  split. { clear -SS Ly1 Ly2 Ln1 Ln2 L1 L2. unfold same_sizes, same_sizes32 in *. cbn [vbuf bdec] in SS.
    revert SS. generalize (bdec b2'). generalize (bdec b1'). intros l. induction l as [|ch l IH]; intros [|ch' l'] H; inversion H; subst; constructor; auto.
    clear -H3. revert ch' H3. induction ch as [|m ch IH]; intros [|m' ch'] H; inversion H; subst; constructor; auto.
    destruct H3 as (W & W' & H1 & H2). unfold mwf, values in *; cbn [rows cols elts] in *. rewrite !map_length in *. auto. }
  split; [exact Fi1|]. split; [exact Fi2|].
  destruct (distance_mean_squared p HA b0 b0 (map values d1) (map values d2) e1 e2) as (D & ED & PD & BD); auto.
  assert (C : comparable p p) by (repeat split).
  assert (SA : same_sizes (vbuf b1') e1) by (apply LS; auto; congruence).
  assert (SB : same_sizes e1 e2) by (apply LS; auto; congruence).
  assert (SC : same_sizes e1 (vbuf b1')) by (apply LS; auto; congruence).
  assert (SD : same_sizes e2 (vbuf b2')) by (apply LS; auto; congruence).
  assert (SE : same_sizes (vbuf b2') e2) by (apply LS; auto; congruence).
  assert (SF : same_sizes (vbuf b1') e2) by (apply LS; auto; congruence).
  assert (SG : same_sizes e1 (vbuf b2')) by (apply LS; auto; congruence).
  assert (V : forall x y, bpar x = p -> bpar y = p -> same_sizes x y -> distance x y = Ok (Num (sum_sq_diff (all_values x) (all_values y) / n))).
  { intros x y Hx Hy Hxy. apply distance_value; auto. rewrite Hy. auto. }
  assert (T : forall x y z, bpar x = p -> bpar y = p -> bpar z = p -> same_sizes x y -> same_sizes y z -> same_sizes x z ->
     sqrt (sum_sq_diff (all_values x) (all_values z) / n) <= sqrt (sum_sq_diff (all_values x) (all_values y) / n) + sqrt (sum_sq_diff (all_values y) (all_values z) / n)).
  { intros x y z Hx Hy Hz Hxy Hyz Hxz.
    destruct (metric x y z p Hx) as (a1 & a2 & a3 & A1 & _ & A2 & A3 & _ & _ & A4); auto; [rewrite Hy; auto|rewrite Hz; auto|].
    rewrite V in A1, A2, A3 by auto. inversion A1; inversion A2; inversion A3; subst; auto. }
  rewrite V in ED by auto. inversion ED; subst D; clear ED.
  assert (Q : forall a c, a <= c -> sqrt (a / n) <= sqrt (c / n)).
  { intros a c Hac. apply sqrt_le_1_alt. apply Rmult_le_compat_r; auto. apply Rlt_le, Rinv_0_lt_compat; auto. }
  apply Q in G1, G2. unfold v. rewrite <- !vbuf_values.
  assert (B : forall b, bpar (vbuf b) = p) by reflexivity.
  pose proof (T (vbuf b1') e1 (vbuf b2') (B b1') Pe1 (B b2') SA SG SS) as T1.
  pose proof (T e1 e2 (vbuf b2') Pe1 Pe2 (B b2') SB SD SG) as T2.
  pose proof (T e1 (vbuf b1') e2 Pe1 (B b1') Pe2 SC SF SB) as T3.
  pose proof (T (vbuf b1') (vbuf b2') e2 (B b1') (B b2') Pe2 SS SE SF) as T4.
  rewrite (sum_sq_sym (all_values e2) (all_values (vbuf b2'))) in T2.
  rewrite (sum_sq_sym (all_values e1) (all_values (vbuf b1'))) in T3.
  fold n in BD. fold rms in BD. apply Rabs_le_inv in BD. apply Rabs_le. lra.
Qed.

Theorem distance32_mean_squared sum square (b1 b2 : buffer f32) (d1 d2 : list (mat f32)) b1' b2' N :
  summation32 sum -> good_square square -> small_shape p -> reachable p b1 -> reachable p b2 ->
  Z.of_nat (length d1) = signum p -> Z.of_nat (length d2) = signum p ->
  Forall (shaped p) d1 -> Forall (shaped p) d2 -> Forall all_finite d1 -> Forall all_finite d2 ->
  Forall (fun m => padded_energy p (values m) <= 2 ^ 220) d1 -> Forall (fun m => padded_energy p (values m) <= 2 ^ 220) d2 ->
  decompose b1 d1 null_denoiser = Ok (true, b1') -> decompose b2 d2 null_denoiser = Ok (true, b2') ->
  Forall (fun m => (length (elts m) <= N)%nat) (subbands b1') -> (Z.of_nat (N + 8) <= 2 ^ 22)%Z ->
  (Z.of_nat (length (subbands b1')) <= 2 ^ 27)%Z ->
  let n := IZR (samples p) in
  let rms := sqrt (signal_gap p (map values d1) (map values d2) / n) in
  let dev := 7 / 10 ^ 8 * rms + sqrt (rounding_gap u32 eta32 p (map values d1) / n) + sqrt (rounding_gap u32 eta32 p (map values d2) / n) in
  n * ((rms + dev) * (rms + dev)) <= bpow radix2 120 ->
  exists d v, distance32 sum square b1' b2' = Ok d /\ is_finite d = true /\ 0 <= B2R d /\
    0 <= v /\ Rabs (v - rms) <= dev /\
    Rabs (B2R d - v * v) <= INR (N + 8) * bpow radix2 (-23) * (v * v)
      + (INR (length (values32 b1')) / n * bpow radix2 (-148) + bpow radix2 (-149)).
Proof.
  intros Hsum Hsq HS R1 R2 L1 L2 S1 S2 F1 F2 E1 E2 D1 D2 HN HB HK n rms dev HT.
  destruct (stored_rms b1 b2 d1 d2 b1' b2' HS R1 R2 L1 L2 S1 S2 F1 F2 E1 E2 D1 D2) as (Hn & P1 & P2 & SS & Fi1 & Fi2 & B).
  fold n in Hn, B. fold rms in B. fold dev in B.
  set (v := sqrt (sum_sq_diff (values32 b1') (values32 b2') / n)) in *.
  pose proof (sum_sq_pos (values32 b1') (values32 b2')) as PS.
  assert (V2 : v * v = sum_sq_diff (values32 b1') (values32 b2') / n).
  { unfold v. apply sqrt_sqrt. apply Rmult_le_pos; auto. apply Rlt_le, Rinv_0_lt_compat; auto. }
  assert (PV : 0 <= v) by apply sqrt_pos.
  destruct (distance32_close sum square b1' b2' N Hsum Hsq) as (d & Ed & Fd & Pd & Bd); auto.
  - rewrite P1, P2. repeat split.
  - rewrite P1. auto.
  - replace (sum_sq_diff (values32 b1') (values32 b2')) with (n * (v * v)) by (rewrite V2; field; lra).
    eapply Rle_trans; [|apply HT]. apply Rmult_le_compat_l; [lra|].
    apply Rabs_le_inv in B. apply Rmult_le_compat; lra.
  - rewrite P1 in Bd. fold n in Bd. rewrite <- V2 in Bd. exists d, v.
    split; auto.
Qed.

(** size of the rounding part *)
Lemma two_sums a b n s c : 0 <= a -> 0 <= b -> 0 <= n -> 0 <= s -> 0 <= c ->
  (a * n + b) * (a * n + b) + (a * s + b * c) * (a * s + b * c) <=
  (a * sqrt (n * n + s * s) + b * sqrt (c * c + 1)) * (a * sqrt (n * n + s * s) + b * sqrt (c * c + 1)).
Proof.
  intros Ha Hb Hn Hs Hc.
  assert (P1 : 0 <= n * n + s * s) by nra. assert (P2 : 0 <= c * c + 1) by nra.
  pose proof (sqrt_sqrt _ P1) as Q1. pose proof (sqrt_sqrt _ P2) as Q2.
  assert (H : n + s * c <= sqrt (n * n + s * s) * sqrt (c * c + 1)).
  { rewrite <- sqrt_mult by auto. apply Rsqr_incr_0_var; [|apply sqrt_pos]. rewrite Rsqr_sqrt by (apply Rmult_le_pos; auto).
    unfold Rsqr. pose proof (Rle_0_sqr (n * c - s)). unfold Rsqr in *. lra. }
  set (x := sqrt (n * n + s * s)) in *. set (y := sqrt (c * c + 1)) in *.
  assert (0 <= a * b) by (apply Rmult_le_pos; auto).
  assert (a * b * (n + s * c) <= a * b * (x * y)) by (apply Rmult_le_compat_l; auto).
  replace ((a * x + b * y) * (a * x + b * y)) with (a * a * (x * x) + b * b * (y * y) + 2 * (a * b * (x * y))) by ring.
  rewrite Q1, Q2. lra.
Qed.

Theorem rounding_gap_bound (d : list (mat R)) : Forall (shaped p) d ->
  sqrt (rounding_gap u32 eta32 p d) <=
  INR (passes p * nsteps p) * (38 / 10 ^ 7) * sqrt (fold_right (fun m s => padded_energy p m + s) 0 d)
  + INR (nsteps p) / 2 ^ 75 * sqrt (INR (length d)).
Proof.
  intros HD. set (a := INR (passes p * nsteps p) * (38 / 10 ^ 7)). set (b := INR (nsteps p) / 2 ^ 75).
  assert (Ha : 0 <= a) by (apply Rmult_le_pos; [apply pos_INR|lra]).
  assert (Hb : 0 <= b) by (apply Rmult_le_pos; [apply pos_INR|apply Rlt_le, Rinv_0_lt_compat, pow_lt; lra]).
  assert (PE : forall m, 0 <= padded_energy p m).
  { intros m. apply rsum_nonneg. intros i _. apply rsum_nonneg. intros j _. pose proof (Rle_0_sqr (padded_at p m i j)). unfold Rsqr in *. lra. }
  assert (PS : 0 <= fold_right (fun m s => padded_energy p m + s) 0 d).
  { clear HD. induction d as [|m r IH]; simpl; [lra|]. pose proof (PE m). lra. }
  apply Rsqr_incr_0_var.
  2:{ apply Rplus_le_le_0_compat; apply Rmult_le_pos; auto; apply sqrt_pos. }
  assert (RG : forall r, 0 <= rounding_gap u32 eta32 p r).
  { induction r as [|m r IH]; cbn [rounding_gap]; [lra|]. pose proof (Rle_0_sqr (accuracy u32 eta32 p (sqrt (padded_energy p m)))). unfold Rsqr in *. lra. }
  rewrite Rsqr_sqrt by auto. unfold Rsqr. clear PS.
  induction HD as [|m r Hm HD IH]; cbn [rounding_gap fold_right length].
  { simpl. rewrite sqrt_0. lra. }
  assert (PS : 0 <= fold_right (fun m s => padded_energy p m + s) 0 r).
  { clear -PE. induction r as [|m r IH]; simpl; [lra|]. pose proof (PE m). lra. }
  pose proof (accuracy_bound p (sqrt (padded_energy p m)) HA (sqrt_pos _)) as AB. fold a b in AB.
  assert (A0 : 0 <= accuracy u32 eta32 p (sqrt (padded_energy p m))) by (eapply Rle_trans; [apply sqrt_pos|apply (dec_accuracy u32 eta32 A32 A32_rounding u32_pos eta32_pos p HA m Hm)]).
  pose proof (two_sums a b (sqrt (padded_energy p m)) (sqrt (fold_right (fun m s => padded_energy p m + s) 0 r)) (sqrt (INR (length r))) Ha Hb (sqrt_pos _) (sqrt_pos _) (sqrt_pos _)) as T.
  rewrite !sqrt_sqrt in T by (auto using pos_INR). rewrite S_INR.
  eapply Rle_trans; [|apply T]. apply Rplus_le_compat; auto.
  apply Rmult_le_compat; auto.
Qed.
End F.
