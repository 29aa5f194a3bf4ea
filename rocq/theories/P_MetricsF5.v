(** * P_MetricsF5: Distance in floats, the result. *)
Require Import List Bool Arith ZArith Lia Reals Lra Permutation.
Require Import ZifyBool.
Require Import Flocq.Core.Core Flocq.Prop.Relative Flocq.Prop.Plus_error Flocq.IEEE754.BinarySingleNaN.
Require Import Verif.M_Base Verif.M_Params Verif.M_Buffer Verif.M_Float Verif.M_Binary32 Verif.M_Metrics Verif.M_MetricsF.
Require Import Verif.S_Buffer Verif.S_Metrics Verif.S_MetricsF Verif.P_Base Verif.P_Buffer Verif.P_Float Verif.P_SfFloat Verif.P_Binary32 Verif.P_Preview3.
Require Import Verif.P_Metrics Verif.P_MetricsF Verif.P_MetricsF2 Verif.P_MetricsF3 Verif.P_MetricsF4.
Import ListNotations.
Open Scope R_scope.

Definition v64 : R := bp (-53).
Lemma v64_small : 0 < v64 <= u32.
Proof. split; [apply bp_pos|]. apply bpow_le. lia. Qed.

Definition pair_exact (u : mat f32 * mat f32) : R := rsum (bdiff (snd u) (fst u)).
Definition pair_size (u : mat f32 * mat f32) : R := INR (length (elts (snd u))).
Definition esum (l : list (mat f32 * mat f32)) : R := rsum (map pair_exact l).
Definition ssum (l : list (mat f32 * mat f32)) : R := rsum (map pair_size l).

Lemma pair_exact_nonneg u : 0 <= pair_exact u.
Proof. apply rsum_nonneg. apply Forall_map. apply Forall_forall. intros. apply Rle_0_sqr. Qed.
Lemma esum_nonneg l : 0 <= esum l.
Proof. apply rsum_nonneg. apply Forall_map. apply Forall_forall. intros. apply pair_exact_nonneg. Qed.
Lemma ssum_nonneg l : 0 <= ssum l.
Proof. apply rsum_nonneg. apply Forall_map. apply Forall_forall. intros. apply pos_INR. Qed.

(** the double after some subbands: X is the exact sum, S the number of
    values, k the number of subbands *)
Definition good_acc (N k : nat) (X S : R) (acc : f64) : Prop :=
  is_finite acc = true /\ 0 <= B2R acc /\
  app ((1 + u32) ^ (N + 6) * (1 + v64) ^ k) ((1 + v64) ^ k * (2 * S * eta32)) (B2R acc) X.

Lemma fold_acc sum square N : summation32 sum -> good_square square -> (Z.of_nat (N + 8) <= 2 ^ 22)%Z ->
  forall l k X S acc,
  Forall (fun u : mat f32 * mat f32 => finite_mat (fst u) /\ finite_mat (snd u) /\ (length (elts (snd u)) <= N)%nat) l ->
  (1 + v64) ^ (k + length l) <= 2 -> 0 <= X -> 0 <= S -> X + esum l <= bp 120 -> S + ssum l <= bp 60 ->
  good_acc N k X S acc ->
  good_acc N (k + length l) (X + esum l) (S + ssum l)
    (fold_left (fun acc u => Bplus mode_NE acc (term32 sum square u)) l acc).
Proof.
  intros HS HQ HN. induction l as [|[a b] l IH]; intros k X S acc HF HV HX HSS HE HM HG.
  - cbn [length fold_left]. unfold esum, ssum; cbn [map]. unfold rsum; cbn [fold_right]. rewrite Nat.add_0_r, !Rplus_0_r. auto.
  - inversion HF as [|? ? (Fa & Fb & Lb) HF']; subst. cbn [fst snd] in *. cbn [length fold_left] in *.
    assert (EX : esum ((a, b) :: l) = pair_exact (a, b) + esum l) by reflexivity.
    assert (SX : ssum ((a, b) :: l) = pair_size (a, b) + ssum l) by reflexivity.
    rewrite EX in *. rewrite SX in *. rewrite <- !Rplus_assoc.
    assert (E0 := pair_exact_nonneg (a, b)). assert (El := esum_nonneg l). assert (Sl := ssum_nonneg l).
    assert (S0 : 0 <= pair_size (a, b)) by apply pos_INR.
    assert (VS := v64_small). assert (UP := u32_pos). assert (EP := eta32_pos).
    replace (k + Datatypes.S (length l))%nat with (Datatypes.S k + length l)%nat in * by lia.
    apply IH; auto; try lra.
    assert (Kb : (1 + v64) ^ Datatypes.S k <= 2) by (eapply Rle_trans; [|exact HV]; apply pow_mono; [lra|lia]).
    assert (Kb' : (1 + v64) ^ k <= 2) by (eapply Rle_trans; [|exact Kb]; apply pow_mono; [lra|lia]).
    assert (K1 := pow_ge1 v64 k ltac:(lra)).
    assert (GN := pow2_bound (N + 6) ltac:(lia)).
    destruct (term_app sum square a b N HS HQ Fa Fb HN Lb) as (FT & PT & AT). { change (pair_exact (a, b) <= bp 120). lra. }
    change (rsum (bdiff b a)) with (pair_exact (a, b)) in AT. change (INR (length (elts b))) with (pair_size (a, b)) in AT.
    destruct HG as (FA & PA & AA).
    set (t := term32 sum square (a, b)) in *. set (D := pair_exact (a, b)) in *. set (z := pair_size (a, b)) in *.
    assert (AT' : app ((1 + u32) ^ (N + 6) * (1 + v64) ^ k) ((1 + v64) ^ k * (2 * z * eta32)) (B2R t) D).
    { eapply app_weak; [| |exact AT].
      - rewrite <- Rmult_1_r at 1. apply Rmult_le_compat_l; lra.
      - rewrite <- Rmult_1_l at 1. apply Rmult_le_compat_r; [|lra]. apply Rmult_le_pos; [lra|]. lra. }
    assert (AS := app_plus _ _ _ _ _ _ _ AA AT').
    assert (ET : eta32 <= bp (-62)) by (unfold eta32; apply bpow_le; lia).
    assert (AB : (1 + v64) ^ k * (2 * S * eta32) + (1 + v64) ^ k * (2 * z * eta32) <= 1).
    { replace ((1 + v64) ^ k * (2 * S * eta32) + (1 + v64) ^ k * (2 * z * eta32)) with ((1 + v64) ^ k * (2 * ((S + z) * eta32))) by ring.
      assert ((S + z) * eta32 <= bp 60 * bp (-62)) by (apply Rmult_le_compat; lra).
      rewrite <- bpow_plus in H. change (bp (60 + -62)) with (/ 4) in H.
      assert (0 <= (S + z) * eta32) by (apply Rmult_le_pos; lra). nra. }
    assert (UB := app_upper _ _ _ _ AS).
    assert (G2 : 1 <= (1 + u32) ^ (N + 6) * (1 + v64) ^ k <= 4) by (split; nra).
    assert (B120 : 1 <= bp 120) by (change 1 with (bp 0); apply bpow_le; lia).
    assert (V1 : v64 <= 1) by (change 1 with (bp 0); apply bpow_le; lia).
    assert (SB : B2R acc + B2R t <= 5 * bp 120) by nra.
    assert (OK : (B2R acc + B2R t) * (1 + bp (- (53))) < bp 1024).
    { change (bp (- (53))) with v64. apply Rle_lt_trans with (bp 4 * bp 120).
      - change (bp 4) with 16. nra.
      - rewrite <- bpow_plus. apply bpow_lt. lia. }
    destruct (plus_ok 53 1024 _ _ acc t FA FT PA PT OK) as (F & V & P).
    pose proof (plus_rel 53 1024 _ acc t PA PT) as PR. change (bp (- (53))) with v64 in PR.
    split; [exact F|]. split; [rewrite V; exact P|]. rewrite V.
    assert (Q0 : 0 <= (1 + v64) ^ k * (2 * S * eta32) + (1 + v64) ^ k * (2 * z * eta32)).
    { assert (0 <= 2 * S * eta32) by (apply Rmult_le_pos; lra). assert (0 <= 2 * z * eta32) by (apply Rmult_le_pos; lra). nra. }
    assert (V2 : 1 <= 1 + v64) by lra.
    assert (TT := app_trans _ _ _ _ _ _ _ (proj1 G2) V2 Q0 AS PR).
    eapply app_weak; [| |exact TT]; right; cbn [pow]; ring.
Qed.

(** ** number of samples *)
Lemma samples_ok p : small_shape p -> (1 <= samples p < 2 ^ 64)%Z /\ to_size (signum p * signal_size (shape p)) = samples p.
Proof.
  intros (HP & HB & HS & HT). rewrite signal_size_ok by auto. fold (channel_samples p). fold (samples p).
  assert (1 <= samples p)%Z.
  { unfold samples. pose proof (prod_pos (shape p) HP) as Hq. fold (channel_samples p) in Hq. nia. }
  split; [lia|]. unfold to_size. apply Z.mod_small. lia.
Qed.

Lemma samples64 n : (1 <= n < 2 ^ 64)%Z ->
  let y := f64_of_int n in
  is_finite y = true /\ IZR n * (1 - v64) <= B2R y <= IZR n * (1 + v64) /\ 1 <= B2R y.
Proof.
  intros H. cbv zeta.
  assert (N1 : 1 <= IZR n) by (apply IZR_le; lia).
  assert (N2 : IZR n <= bp 64) by (change (bp 64) with (IZR (2 ^ 64)); apply IZR_le; lia).
  assert (R := r64_rel (IZR n) ltac:(right; apply (Rle_trans _ 1); auto; change 1 with (bp 0); apply bpow_le; lia)).
  fold v64 in R. assert (V := v64_small). assert (U := u32_small).
  pose proof (binary_normalize_correct 53 1024 _ _ mode_NE n 0 false) as C. cbv zeta in C. fold (f64_of_int n) in C.
  assert (EF : F2R (Float radix2 n 0) = IZR n) by (unfold F2R; simpl; ring). rewrite EF in C.
  assert (R1 : 1 <= r64 (IZR n)).
  { rewrite <- (r64_int 1) at 1 by lia. apply r64_le. auto. }
  rewrite Rlt_bool_true in C.
  - destruct C as (E & F & _). rewrite E. split; [exact F|]. split; auto.
  - rewrite Rabs_pos_eq by lra. apply Rle_lt_trans with (IZR n * 2); [nra|].
    apply Rle_lt_trans with (bp 64 * bp 1); [change (bp 1) with 2; lra|]. rewrite <- bpow_plus. apply bpow_lt. lia.
Qed.

(** ** the quotient, rounded to float *)
Lemma quotient (ret : f64) n g a X : (1 <= n < 2 ^ 64)%Z -> is_finite ret = true -> 0 <= B2R ret -> B2R ret <= bp 124 ->
  1 <= g -> 0 <= a -> app g a (B2R ret) X ->
  let d := f32_of_f64 (Bdiv mode_NE ret (f64_of_int n)) in
  is_finite d = true /\ 0 <= B2R d /\
  app (g * (1 + 2 * v64) * (1 + v64) * (1 + u32)) ((1 + u32) * ((1 + v64) * ((1 + 2 * v64) * (a / IZR n)) + bp (-1075)) + eta32) (B2R d) (X / IZR n).
Proof.
  intros Hn F P UB Hg Ha A. cbv zeta. destruct (samples64 n Hn) as (Fy & Ry & Y1). set (y := f64_of_int n) in *.
  assert (N1 : 1 <= IZR n) by (apply IZR_le; lia). assert (V := v64_small). assert (U := u32_small).
  assert (I0 : 0 < / B2R y) by (apply Rinv_0_lt_compat; lra).
  assert (J0 : 0 < / IZR n) by (apply Rinv_0_lt_compat; lra).
  assert (D1 := app_div _ _ _ _ (IZR n) ltac:(lra) A).
  assert (D2 : app (1 + 2 * v64) 0 (B2R ret / B2R y) (B2R ret / IZR n)).
  { split; [apply Rmult_le_pos; lra|].
    replace (B2R ret / B2R y - B2R ret / IZR n) with (B2R ret / IZR n * ((IZR n - B2R y) / B2R y)) by (field; lra).
    assert (Q0 : 0 <= B2R ret / IZR n) by (apply Rmult_le_pos; lra).
    rewrite Rabs_mult, (Rabs_pos_eq (B2R ret / IZR n)) by auto.
    replace ((1 + 2 * v64 - 1) * (B2R ret / IZR n) + 0) with (B2R ret / IZR n * (2 * v64)) by ring.
    apply Rmult_le_compat_l; auto.
    unfold Rdiv. rewrite Rabs_mult, (Rabs_pos_eq (/ B2R y)) by lra.
    apply Rmult_le_reg_r with (B2R y); [lra|]. rewrite Rmult_assoc, Rinv_l, Rmult_1_r by lra.
    apply Rle_trans with (v64 * IZR n); [apply Rabs_le; nra|]. nra. }
  assert (H0 : 0 <= a / IZR n) by (apply Rmult_le_pos; lra). assert (H0' : 1 <= 1 + 2 * v64) by lra.
  assert (E1 := app_trans _ _ _ _ _ _ _ Hg H0' H0 D1 D2).
  set (w := B2R ret / B2R y) in *.
  assert (W0 : 0 <= w) by (apply Rmult_le_pos; lra).
  assert (W1 : w <= bp 124).
  { eapply Rle_trans; [|exact UB]. unfold w, Rdiv. rewrite <- (Rmult_1_r (B2R ret)) at 2. apply Rmult_le_compat_l; auto.
    rewrite <- Rinv_1. apply Rinv_le_contravar; lra. }
  assert (T := r64_total w). rewrite (Rabs_pos_eq w) in T by auto.
  assert (D3 : app (1 + v64) (bp (-1075)) (r64 w) w) by (split; auto; fold v64 in T; lra).
  assert (R0 : 0 <= r64 w) by (rewrite <- r64_0; apply r64_le; auto).
  assert (B75 : bp (-1075) <= 1) by (change 1 with (bp 0); apply bpow_le; lia).
  assert (B124 : 1 <= bp 124) by (change 1 with (bp 0); apply bpow_le; lia).
  assert (W2 : r64 w <= bp 126).
  { apply app_upper in D3. change 126%Z with (2 + 124)%Z. rewrite bpow_plus. change (bp 2) with 4. nra. }
  pose proof (Bdiv_correct 53 1024 _ _ mode_NE ret y ltac:(lra)) as C. fold w in C.
  rewrite Rlt_bool_true in C.
  2: { rewrite Rabs_pos_eq by auto. eapply Rle_lt_trans; [exact W2|]. apply bpow_lt. lia. }
  destruct C as (E & FF & _). rewrite F in FF. set (q := Bdiv mode_NE ret y) in *.
  destruct (narrow_big q FF) as [VV F3]. { rewrite E, Rabs_pos_eq by auto. exact W2. }
  split; auto. rewrite VV, E. split; [apply r32_nonneg; auto|].
  assert (T2 := r32_total (r64 w)). rewrite (Rabs_pos_eq (r64 w)) in T2 by auto.
  assert (D4 : app (1 + u32) eta32 (r32 (r64 w)) (r64 w)) by (split; auto; lra).
  assert (A0 : 0 <= a / IZR n) by (apply Rmult_le_pos; lra).
  assert (H1 : 1 <= g * (1 + 2 * v64)) by nra.
  assert (H2 : 0 <= (1 + 2 * v64) * (a / IZR n) + 0) by (rewrite Rplus_0_r; apply Rmult_le_pos; lra).
  assert (H3 : 1 <= 1 + v64) by lra.
  assert (E2 := app_trans _ _ _ _ _ _ _ H1 H3 H2 E1 D3). rewrite Rplus_0_r in E2, H2.
  assert (H4 : 1 <= g * (1 + 2 * v64) * (1 + v64)) by nra.
  assert (P75 := bp_pos (-1075)).
  assert (H5 : 0 <= (1 + v64) * ((1 + 2 * v64) * (a / IZR n)) + bp (-1075)).
  { apply Rplus_le_le_0_compat; [apply Rmult_le_pos; lra|lra]. }
  assert (H6 : 1 <= 1 + u32) by lra.
  exact (app_trans _ _ _ _ _ _ _ H4 H6 H5 E2 D4).
Qed.

(** ** values and subbands *)
Lemma values_subbands b : values32 b = concat (map (fun m : mat f32 => map (fun x : f32 => B2R x) (elts m)) (subbands b)).
Proof.
  unfold values32, subbands. induction (bdec b) as [|ch d IH]; cbn [map concat]; auto. rewrite IH, map_app, concat_app. reflexivity.
Qed.

Definition same_mat (m m' : mat f32) : Prop := mwf m /\ mwf m' /\ rows m = rows m' /\ cols m = cols m'.
Lemma same_concat b1 b2 : same_sizes32 b1 b2 -> Forall2 same_mat (subbands b1) (subbands b2).
Proof.
  unfold same_sizes32, subbands. induction 1 as [|c1 c2 d1 d2 Hc Hd IH]; cbn [concat]; [constructor|]. apply Forall2_app; auto.
Qed.
Lemma same_len m m' : same_mat m m' -> length (elts m) = length (elts m').
Proof. intros (W & W' & R & C). unfold mwf in *. rewrite W, W', R, C. reflexivity. Qed.

Lemma sum_sq_cons x l y l' : sum_sq_diff (x :: l) (y :: l') = (x - y) * (x - y) + sum_sq_diff l l'.
Proof. reflexivity. Qed.
Lemma bdiff_sum (a b : mat f32) : rsum (bdiff b a) = sum_sq_diff (map (fun x : f32 => B2R x) (elts b)) (map (fun x : f32 => B2R x) (elts a)).
Proof.
  unfold bdiff. generalize (elts a), (elts b). intros l l'; revert l. induction l' as [|x l' IH]; intros [|y l]; try reflexivity.
  cbn [combine map fst snd]. rewrite sum_sq_cons. unfold rsum in *; cbn [fold_right]. rewrite IH. reflexivity.
Qed.
Lemma esum_values l1 l2 : Forall2 same_mat l1 l2 ->
  esum (combine l1 l2) = sum_sq_diff (concat (map (fun m : mat f32 => map (fun x : f32 => B2R x) (elts m)) l2))
    (concat (map (fun m : mat f32 => map (fun x : f32 => B2R x) (elts m)) l1)) /\
  ssum (combine l1 l2) = INR (length (concat (map (fun m : mat f32 => map (fun x : f32 => B2R x) (elts m)) l1))).
Proof.
  induction 1 as [|m1 m2 l1 l2 Hm Hl [IH1 IH2]]; [split; reflexivity|]. cbn [combine map concat].
  pose proof (same_len _ _ Hm) as L. split.
  - rewrite sum_sq_app by (rewrite !map_length; auto). rewrite <- IH1. unfold esum; cbn [map]. unfold rsum; cbn [fold_right].
    f_equal. unfold pair_exact. cbn [fst snd]. apply bdiff_sum.
  - rewrite app_length, plus_INR, <- IH2. unfold ssum; cbn [map]. unfold rsum; cbn [fold_right]. f_equal.
    unfold pair_size. cbn [snd]. rewrite map_length, L. reflexivity.
Qed.

Lemma v_growth k : (Z.of_nat k <= 2 ^ 27)%Z -> 1 <= (1 + v64) ^ k <= 1 + u32 / 2.
Proof.
  intros H. assert (V := v64_small). assert (NB := INR_bound k 27 H ltac:(lia)).
  assert (B : INR k * v64 <= u32 / 4).
  { apply Rle_trans with (bp 27 * v64); [apply Rmult_le_compat_r; lra|]. unfold v64, u32, Rdiv. rewrite <- bpow_plus.
    change (/ 4) with (bp (-2)). rewrite <- bpow_plus. apply bpow_le. lia. }
  assert (U := u32_small). destruct (growth v64 k) as [A C]; lra.
Qed.

Lemma ssum_bound N l : Forall (fun u : mat f32 * mat f32 => finite_mat (fst u) /\ finite_mat (snd u) /\ (length (elts (snd u)) <= N)%nat) l ->
  ssum l <= INR N * INR (length l).
Proof.
  induction 1 as [|u l (_ & _ & H) _ IH]; [unfold ssum, rsum; simpl; lra|].
  unfold ssum in *; cbn [map length]. unfold rsum in *; cbn [fold_right]. rewrite S_INR.
  assert (pair_size u <= INR N) by (unfold pair_size; apply le_INR; auto). lra.
Qed.

Lemma pairs_ok N b1 b2 : Forall2 same_mat (subbands b1) (subbands b2) -> finite_buffer b1 -> finite_buffer b2 ->
  Forall (fun m => (length (elts m) <= N)%nat) (subbands b1) ->
  Forall (fun u : mat f32 * mat f32 => finite_mat (fst u) /\ finite_mat (snd u) /\ (length (elts (snd u)) <= N)%nat)
    (combine (subbands b1) (subbands b2)).
Proof.
  intros HS F1 F2 HN.
  assert (G : forall b, finite_buffer b -> Forall finite_mat (subbands b)).
  { unfold finite_buffer, subbands. intros b. induction 1; cbn [concat]; [constructor|]. apply Forall_app; auto. }
  apply G in F1, F2. revert F1 F2 HN. induction HS as [|m1 m2 l1 l2 Hm Hl IH]; intros F1 F2 HN; cbn [combine]; constructor;
    inversion F1; inversion F2; inversion HN; subst; auto.
  cbn [fst snd]. rewrite <- (same_len _ _ Hm). auto.
Qed.

Theorem distance32_close sum square b1 b2 N : summation32 sum -> good_square square ->
  comparable (bpar b1) (bpar b2) -> small_shape (bpar b1) -> same_sizes32 b1 b2 -> finite_buffer b1 -> finite_buffer b2 ->
  Forall (fun m => (length (elts m) <= N)%nat) (subbands b1) -> (Z.of_nat (N + 8) <= 2 ^ 22)%Z ->
  (Z.of_nat (length (subbands b1)) <= 2 ^ 27)%Z ->
  let total := sum_sq_diff (values32 b1) (values32 b2) in
  let n := IZR (samples (bpar b1)) in
  total <= bp 120 ->
  exists d, distance32 sum square b1 b2 = Ok d /\ is_finite d = true /\ 0 <= B2R d /\
    Rabs (B2R d - total / n) <= INR (N + 8) * bp (-23) * (total / n) + (INR (length (values32 b1)) / n * bp (-148) + bp (-149)).
Proof.
  intros HS HQ (C1 & C2 & C3) HP HZ F1 F2 HN HB HK total n HT.
  assert (SM := same_concat b1 b2 HZ). destruct (esum_values _ _ SM) as [E1 E2]. rewrite <- (values_subbands b1), <- (values_subbands b2) in E1. rewrite <- (values_subbands b1) in E2.
  rewrite (sum_sq_sym (values32 b2)) in E1. fold total in E1.
  assert (PO := pairs_ok N b1 b2 SM F1 F2 HN).
  set (l := combine (subbands b1) (subbands b2)) in *.
  assert (LL : length l = length (subbands b1)) by (unfold l; eapply combine_len; eauto).
  assert (V := v64_small). assert (U := u32_small). assert (UP := u32_pos). assert (EP := eta32_pos).
  assert (VG := v_growth (length l) ltac:(rewrite LL; auto)).
  assert (T0 : 0 <= total) by (rewrite <- E1; apply esum_nonneg).
  assert (M0 : 0 <= ssum l) by apply ssum_nonneg.
  assert (MB : ssum l <= bp 60).
  { eapply Rle_trans; [apply (ssum_bound N); auto|]. apply Rle_trans with (bp 22 * bp 27); [|rewrite <- bpow_plus; apply bpow_le; lia].
    apply Rmult_le_compat; try apply pos_INR; apply INR_bound; lia. }
  assert (FA := fold_acc sum square N HS HQ HB l 0 0 0 (f64_of_int 0) PO ltac:(cbn [Nat.add]; lra) ltac:(lra) ltac:(lra)
    ltac:(rewrite Rplus_0_l, E1; auto) ltac:(rewrite Rplus_0_l; auto)).
  cbn [Nat.add] in FA. rewrite !Rplus_0_l, E1 in FA.
  destruct FA as (FR & PR & AR).
  { destruct (val_int64 0 ltac:(lia)) as [Z0 Z1]. unfold good_acc. rewrite Z0. split; auto. split; [apply Rle_refl|].
    split; [lra|]. rewrite Rminus_0_r, Rabs_R0. simpl. lra. }
  set (ret := fold_left _ l _) in *.
  assert (GN := pow2_bound (N + 6) ltac:(lia)).
  assert (G1 : 1 <= (1 + u32) ^ (N + 6) * (1 + v64) ^ length l) by nra.
  assert (G2 : (1 + u32) ^ (N + 6) * (1 + v64) ^ length l <= 4) by nra.
  assert (A0 : 0 <= (1 + v64) ^ length l * (2 * ssum l * eta32)).
  { apply Rmult_le_pos; [lra|]. apply Rmult_le_pos; lra. }
  assert (A1 : (1 + v64) ^ length l * (2 * ssum l * eta32) <= 1).
  { assert (ET : eta32 <= bp (-62)) by (unfold eta32; apply bpow_le; lia).
    assert (ssum l * eta32 <= bp 60 * bp (-62)) by (apply Rmult_le_compat; lra).
    rewrite <- bpow_plus in H. change (bp (60 + -62)) with (/ 4) in H.
    assert (0 <= ssum l * eta32) by (apply Rmult_le_pos; lra).
    apply Rle_trans with (2 * (2 * (ssum l * eta32))); [|lra]. rewrite (Rmult_assoc 2 (ssum l)). apply Rmult_le_compat_r; lra. }
  destruct (samples_ok (bpar b1) HP) as [SR SE].
  assert (RB : B2R ret <= bp 124).
  { apply app_upper in AR. change 124%Z with (4 + 120)%Z. rewrite bpow_plus. change (bp 4) with 16.
    assert (1 <= bp 120) by (change 1 with (bp 0); apply bpow_le; lia). nra. }
  destruct (quotient ret (samples (bpar b1)) _ _ total SR FR PR RB G1 A0 AR) as (FD & PD & AD).
  fold n in AD.
  exists (f32_of_f64 (Bdiv mode_NE ret (f64_of_int (samples (bpar b1))))). split; [|split; [exact FD|split; [exact PD|]]].
  - unfold distance32. rewrite <- C1, <- C2, <- C3, Z.eqb_refl, Z.sub_diag, list_Z_eqb_refl.
    cbn [andb guard bind]. change (to_size 0) with 0%Z. cbn [Z.eqb].
    rewrite (calc32 sum square b1 b2 HZ). cbn [bind]. rewrite SE. reflexivity.
  - destruct AD as [X0 AD]. eapply Rle_trans; [exact AD|]. clear AD.
    assert (N1 : 1 <= n) by (apply IZR_le; lia).
    assert (J0 : 0 < / n) by (apply Rinv_0_lt_compat; lra).
    assert (VV : (1 + v64) ^ length l * (1 + 2 * v64) * (1 + v64) <= 1 + u32).
    { assert (V8 : 16 * v64 <= u32) by (change 16 with (bp 4); unfold v64, u32; rewrite <- bpow_plus; apply bpow_le; lia).
      assert (Q1 : (1 + 2 * v64) * (1 + v64) <= 1 + 4 * v64) by nra.
      assert (0 <= (1 + 2 * v64) * (1 + v64)) by nra.
      rewrite Rmult_assoc. apply Rle_trans with ((1 + u32 / 2) * (1 + 4 * v64)); [apply Rmult_le_compat; lra|]. nra. }
    assert (VV0 : 0 <= (1 + v64) ^ length l * (1 + 2 * v64) * (1 + v64)).
    { apply Rmult_le_pos; [apply Rmult_le_pos|]; lra. }
    apply Rplus_le_compat.
    + apply Rmult_le_compat_r; auto.
      apply Rle_trans with ((1 + u32) ^ (N + 8) - 1).
      * apply Rplus_le_compat_r.
        replace ((1 + u32) ^ (N + 6) * (1 + v64) ^ length l * (1 + 2 * v64) * (1 + v64) * (1 + u32))
          with ((1 + u32) ^ (N + 6) * (((1 + v64) ^ length l * (1 + 2 * v64) * (1 + v64)) * (1 + u32))) by ring.
        replace ((1 + u32) ^ (N + 8)) with ((1 + u32) ^ (N + 6) * ((1 + u32) * (1 + u32))) by (rewrite !pow_add; simpl; ring).
        apply Rmult_le_compat_l; [lra|]. apply Rmult_le_compat_r; lra.
      * assert (NB := INR_bound (N + 8) 22 HB ltac:(lia)). assert (P8 := pos_INR (N + 8)).
        assert (B : INR (N + 8) * u32 <= / 4).
        { apply Rle_trans with (bp 22 * u32); [apply Rmult_le_compat_r; lra|]. unfold u32. rewrite <- bpow_plus.
          change (/ 4) with (bp (-2)). apply bpow_le. lia. }
        destruct (growth u32 (N + 8)) as [_ C]; try lra.
        assert (E23 : bp (-23) = 2 * u32) by (unfold u32; change 2 with (bp 1); rewrite <- bpow_plus; reflexivity).
        rewrite E23. lra.
    + assert (E148 : bp (-148) = 4 * eta32) by (unfold eta32; change 4 with (bp 2); rewrite <- bpow_plus; reflexivity).
      assert (E149 : bp (-149) = 2 * eta32) by (unfold eta32; change 2 with (bp 1); rewrite <- bpow_plus; reflexivity).
      assert (B75 : bp (-1075) <= eta32 / 2) by (unfold eta32, Rdiv; change (/ 2) with (bp (-1)); rewrite <- bpow_plus; apply bpow_le; lia).
      assert (P75 := bp_pos (-1075)).
      rewrite E148, E149, <- E2.
      assert (K0 : 0 <= ssum l / n * eta32) by (apply Rmult_le_pos; [apply Rmult_le_pos|]; lra).
      replace ((1 + v64) * ((1 + 2 * v64) * ((1 + v64) ^ length l * (2 * ssum l * eta32) / n)))
        with (((1 + v64) ^ length l * (1 + 2 * v64) * (1 + v64)) * (2 * (ssum l / n * eta32))) by (field; lra).
      assert (Q : ((1 + v64) ^ length l * (1 + 2 * v64) * (1 + v64)) * (2 * (ssum l / n * eta32)) <= (1 + u32) * (2 * (ssum l / n * eta32)))
        by (apply Rmult_le_compat_r; lra).
      set (W := _ * (2 * (ssum l / n * eta32))) in *.
      replace (ssum l / n * (4 * eta32)) with (4 * (ssum l / n * eta32)) by ring.
      set (K := ssum l / n * eta32) in *.
      assert (Q1 : (1 + u32) * W <= (1 + u32) * ((1 + u32) * (2 * K))) by (apply Rmult_le_compat_l; lra).
      assert (Q2 : (1 + u32) * (1 + u32) <= 2) by nra.
      assert (Q3 : (1 + u32) * (1 + u32) * (2 * K) <= 2 * (2 * K)) by (apply Rmult_le_compat_r; lra).
      assert (Q4 : (1 + u32) * bp (-1075) <= 2 * (eta32 / 2)) by (apply Rmult_le_compat; lra).
      lra.
Qed.

(** ** distance of a buffer to itself *)
Lemma sum_sq_self l : sum_sq_diff l l = 0.
Proof. unfold sum_sq_diff. induction l; simpl; auto. rewrite IHl. ring. Qed.
