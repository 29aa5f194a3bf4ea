(** * P_Round: error of the filters in rounded arithmetic. *)
Require Import List Bool Arith ZArith QArith Qabs Qreals Lia Reals Lra.
Require Import ZifyBool.
Require Import Verif.M_Base Verif.M_Wavelet Verif.M_Real Verif.P_Base Verif.P_Wavelet Verif.P_Buffer.
Require Import Verif.S_Exact Verif.S_Round Verif.P_Sum Verif.P_Lin Verif.P_PR Verif.P_L2 Verif.P_Rec Verif.P_Rel.
Import ListNotations.
Open Scope R_scope.

Lemma pow_ge_1 x n : 1 <= x -> 1 <= x ^ n.
Proof. intros. apply pow_R1_Rle; auto. Qed.

Section Round.
Variables (u eta : R) (A : Arith R).
Hypothesis (HR : rounding u eta A) (Hu : 0 <= u) (Heta : 0 <= eta).

Definition gam (n : nat) : R := (1 + u) ^ (n + 4) - 1.
Definition nu (n : nat) : R := 2 * INR n * (1 + u) ^ n * eta.

Lemma upow n : 1 <= (1 + u) ^ n. Proof. apply pow_ge_1. lra. Qed.
Lemma gam_pos n : 0 <= gam n. Proof. unfold gam. pose proof (upow (n + 4)). lra. Qed.
Lemma nu_pos n : 0 <= nu n.
Proof.
  unfold nu. pose proof (upow n). pose proof (pos_INR n).
  repeat apply Rmult_le_pos; lra.
Qed.

(** ** sums *)
Lemma sum_acc (ms : list R) : forall at_ ae E S, Rabs (at_ - ae) <= E -> Rabs ae <= S ->
  Rabs (fold_left (@aadd R A) ms at_ - (ae + lsum ms (fun m => m))) <=
  (1 + u) ^ length ms * E + ((1 + u) ^ length ms - 1) * (S + lsum ms Rabs) + INR (length ms) * (1 + u) ^ length ms * eta.
Proof.
  induction ms as [|m ms IH]; intros at_ ae E S HE HS.
  - cbn [fold_left lsum length pow INR]. rewrite Rplus_0_r. lra.
  - cbn [fold_left lsum length]. rewrite S_INR. cbn [pow].
    set (E1 := (1 + u) * E + u * (S + Rabs m) + eta).
    assert (H1 : Rabs (@aadd R A at_ m - (ae + m)) <= E1).
    { pose proof (rounding_add _ _ _ HR at_ m) as Ha.
      replace (@aadd R A at_ m - (ae + m)) with ((@aadd R A at_ m - (at_ + m)) + (at_ - ae)) by ring.
      eapply Rle_trans; [apply Rabs_triang|].
      assert (Rabs (at_ + m) <= S + E + Rabs m).
      { replace (at_ + m) with (ae + (at_ - ae) + m) by ring.
        eapply Rle_trans; [apply Rabs_triang|]. apply Rplus_le_compat_r.
        eapply Rle_trans; [apply Rabs_triang|]. lra. }
      assert (u * Rabs (at_ + m) <= u * (S + E + Rabs m)) by (apply Rmult_le_compat_l; auto).
      unfold E1. lra. }
    assert (H2 : Rabs (ae + m) <= S + Rabs m) by (eapply Rle_trans; [apply Rabs_triang|]; lra).
    specialize (IH (@aadd R A at_ m) (ae + m) E1 (S + Rabs m) H1 H2).
    replace (ae + (m + lsum ms (fun m => m))) with (ae + m + lsum ms (fun m => m)) by ring.
    eapply Rle_trans; [exact IH|]. clear IH H1. unfold E1.
    set (P := (1 + u) ^ length ms). set (n := INR (length ms)). set (L := lsum ms Rabs).
    assert (HP : 1 <= P) by apply upow. assert (Hn : 0 <= n) by apply pos_INR.
    assert (HL : 0 <= L).
    { unfold L. clear. induction ms; simpl; [lra|]. pose proof (Rabs_pos a). lra. }
    assert (HS0 : 0 <= S + Rabs m) by (eapply Rle_trans; [apply Rabs_pos|exact H2]).
    assert (0 <= u * (n * P * eta)) by (repeat apply Rmult_le_pos; lra).
    assert (0 <= u * (P * L)) by (repeat apply Rmult_le_pos; lra).
    assert (0 <= u * (P * eta)) by (repeat apply Rmult_le_pos; lra).
    apply Rminus_le. 
    match goal with |- ?X <= 0 => replace X with (- (u * (n * P * eta)) - u * (P * L) - u * (P * eta)) by ring end.
    lra.
Qed.

Definition close4 (m q : R) : Prop := Rabs (m - q) <= ((1 + u) ^ 4 - 1) * Rabs q + eta.

Lemma lsum_close ms ps : Forall2 close4 ms ps ->
  Rabs (lsum ms (fun m => m) - lsum ps (fun m => m)) <= ((1 + u) ^ 4 - 1) * lsum ps Rabs + INR (length ps) * eta /\
  lsum ms Rabs <= (1 + u) ^ 4 * lsum ps Rabs + INR (length ps) * eta.
Proof.
  induction 1 as [|m q ms ps H HF [IH1 IH2]].
  - simpl. rewrite Rminus_diag_eq, Rabs_R0 by auto. lra.
  - cbn [lsum length]. rewrite S_INR. unfold close4 in H. split.
    + replace (m + lsum ms (fun m => m) - (q + lsum ps (fun m => m)))
        with ((m - q) + (lsum ms (fun m => m) - lsum ps (fun m => m))) by ring.
      eapply Rle_trans; [apply Rabs_triang|]. lra.
    + assert (Rabs m <= Rabs q + Rabs (m - q)).
      { replace m with (q + (m - q)) at 1 by ring. apply Rabs_triang. }
      lra.
Qed.

Lemma sum_err ms ps : Forall2 close4 ms ps ->
  Rabs (fold_left (@aadd R A) ms 0 - lsum ps (fun m => m)) <= gam (length ps) * lsum ps Rabs + nu (length ps).
Proof.
  intros H. destruct (lsum_close ms ps H) as [H1 H2].
  pose proof (sum_acc ms 0 0 0 0) as H3.
  rewrite Rminus_diag_eq, Rabs_R0 in H3 by auto. specialize (H3 (Rle_refl 0) (Rle_refl 0)).
  rewrite (Forall2_len H) in H3. rewrite !Rplus_0_l, Rmult_0_r, Rplus_0_l in H3.
  replace (fold_left (@aadd R A) ms 0 - lsum ps (fun m => m)) with
    ((fold_left (@aadd R A) ms 0 - lsum ms (fun m => m)) + (lsum ms (fun m => m) - lsum ps (fun m => m))) by ring.
  eapply Rle_trans; [apply Rabs_triang|].
  unfold gam, nu. rewrite pow_add.
  set (P := (1 + u) ^ length ps) in *. set (Q := (1 + u) ^ 4) in *. set (L := lsum ps Rabs) in *.
  set (n := INR (length ps)) in *.
  assert (HP : 1 <= P) by apply upow.
  assert (Hn : 0 <= n) by apply pos_INR.
  assert ((P - 1) * lsum ms Rabs <= (P - 1) * (Q * L + n * eta)) by (apply Rmult_le_compat_l; lra).
  eapply Rle_trans; [apply Rplus_le_compat; [exact H3|exact H1]|].
  apply Rle_trans with ((P - 1) * (Q * L + n * eta) + n * P * eta + ((Q - 1) * L + n * eta)); [lra|].
  apply Req_le. ring.
Qed.

(** ** taps *)
Definition tapr (v w : R) : Prop := Rabs (v - w) <= 3 * u * Rabs w.

Lemma tapr_0 : tapr (@a0 R A) (@a0 R exactR).
Proof. unfold tapr. rewrite (rounding_zero _ _ _ HR). change (@a0 R exactR) with 0. rewrite Rminus_diag_eq, Rabs_R0 by auto. lra. Qed.
Lemma tapr_opp x y : tapr x y -> tapr (@aopp R A x) (@aopp R exactR y).
Proof.
  unfold tapr. rewrite (rounding_opp _ _ _ HR). cbn [aopp exactR]. intros H.
  replace (- x - - y) with (- (x - y)) by ring. rewrite !Rabs_Ropp. auto.
Qed.

Definition small_literals (t : Z) : bool :=
  forallb (fun q => Qle_bool (1 # 1000000) (Qabs q) && Qle_bool (Qabs q) 1) (dbtable t).
Lemma literals : forallb small_literals [1; 2; 3; 4; 5; 6; 7; 8; 9; 10]%Z = true.
Proof. vm_compute. reflexivity. Qed.

Lemma lo_tapr t : (1 <= t <= 10)%Z -> Forall2 tapr (@lo_r R A t) (@lo_r R exactR t).
Proof.
  intros Ht. unfold lo_r. rewrite !map_map. apply Forall2_map_same. intros q Hq.
  assert (Hs : small_literals t = true).
  { revert t Ht Hq. refine (Z10_cases _ _). intros t Hin _.
    pose proof literals as D. rewrite forallb_forall in D. apply (D t Hin). }
  unfold small_literals in Hs. rewrite forallb_forall in Hs. specialize (Hs q Hq).
  apply andb_true_iff in Hs as [H1 H2]. apply Qle_bool_iff, Qle_Rle in H1. apply Qle_bool_iff, Qle_Rle in H2.
  rewrite Q2R_abs in H1, H2. rewrite RMicromega.Q2R_1 in H2.
  unfold tapr. cbn [asqrt2 alit exactR]. rewrite Rabs_mult, (Rabs_pos_eq (sqrt 2)) by apply sqrt_pos.
  apply (rounding_literal _ _ _ HR). split; auto.
  replace (1 / 10 ^ 6) with (Q2R (1 # 1000000)) by (unfold Q2R; simpl; lra). auto.
Qed.
Lemma hi_tapr t : (1 <= t <= 10)%Z -> Forall2 tapr (@hi_r R A t) (@hi_r R exactR t).
Proof.
  intros Ht. apply (@qmf_rel R R A exactR tapr tapr_opp). apply lo_tapr; auto.
Qed.

Lemma mul_close v w x : tapr v w -> close4 (@amul R A v x) (w * x) /\ close4 (@amul R A x v) (w * x).
Proof.
  intros H. unfold tapr in H.
  assert (G : forall m, Rabs (m - v * x) <= u * Rabs (v * x) + eta -> close4 m (w * x)).
  { intros m Hm. unfold close4. rewrite Rabs_mult in *.
    replace (m - w * x) with ((m - v * x) + (v - w) * x) by ring.
    eapply Rle_trans; [apply Rabs_triang|]. rewrite Rabs_mult.
    assert (Hv : Rabs v <= Rabs w + Rabs (v - w)).
    { replace v with (w + (v - w)) at 1 by ring. apply Rabs_triang. }
    set (X := Rabs x) in *. set (W := Rabs w) in *. set (D := Rabs (v - w)) in *.
    assert (HX : 0 <= X) by apply Rabs_pos. assert (HW : 0 <= W) by apply Rabs_pos.
    assert (u * (Rabs v * X) <= u * ((W + 3 * u * W) * X)).
    { apply Rmult_le_compat_l; auto. apply Rmult_le_compat_r; auto. lra. }
    assert (D * X <= 3 * u * W * X) by (apply Rmult_le_compat_r; auto).
    assert (0 <= u * u * (W * X)) by (repeat apply Rmult_le_pos; auto).
    assert (0 <= u * u * u * (W * X)) by (repeat apply Rmult_le_pos; auto).
    assert (0 <= u * u * u * u * (W * X)) by (repeat apply Rmult_le_pos; auto).
    assert (E : ((1 + u) ^ 4 - 1) * (W * X) =
       4 * (u * (W * X)) + 6 * (u * u * (W * X)) + 4 * (u * u * u * (W * X)) + u * u * u * u * (W * X)) by ring.
    rewrite E.
    apply Rle_trans with (u * ((W + 3 * u * W) * X) + eta + 3 * u * W * X); [lra|].
    assert (E2 : u * ((W + 3 * u * W) * X) + eta + 3 * u * W * X = 4 * (u * (W * X)) + 3 * (u * u * (W * X)) + eta) by ring.
    rewrite E2. lra. }
  split; apply G.
  - apply (rounding_mul _ _ _ HR).
  - pose proof (rounding_mul _ _ _ HR x v) as Hm. rewrite (Rmult_comm x v) in Hm. exact Hm.
Qed.

(** ** rows *)
Lemma fold_map {X} (f : X -> R) l a : fold_left (fun acc e => @aadd R A acc (f e)) l a = fold_left (@aadd R A) (map f l) a.
Proof. revert a; induction l; simpl; auto. Qed.
Lemma lsum_id {X} (f : X -> R) l : lsum (map f l) (fun m => m) = lsum l f.
Proof. induction l; simpl; congruence. Qed.

Notation ertap := (@er R R tapr).

Lemma rowdot_err row row' x : Forall2 ertap row row' ->
  Rabs (@rowdot R A row x - @rowdot R exactR row' x) <=
  gam (length row') * lsum row' (fun e => Rabs (snd e * x (fst e))) + nu (length row').
Proof.
  intros H. rewrite rowdot_lsum. unfold rowdot. rewrite (fold_map (fun e => @amul R A (snd e) (x (fst e)))).
  rewrite (rounding_zero _ _ _ HR).
  rewrite <- (lsum_id (fun e => snd e * x (fst e))).
  rewrite <- (lsum_map (fun e : nat * R => snd e * x (fst e)) row' Rabs).
  rewrite <- (map_length (fun e : nat * R => snd e * x (fst e)) row').
  apply sum_err. apply (Forall2_map2 ertap); auto.
  intros a b [E Hv]. rewrite E. apply mul_close; auto.
Qed.

(** the matrix of magnitudes *)
Definition HA_ (t : Z) (n : nat) : nat -> nat -> R := AM (map Rabs (@lo_r R exactR t)) (map Rabs (@hi_r R exactR t)) n.

Lemma nth_abs f k : nth k (map Rabs f) 0 = Rabs (nth k f 0).
Proof. rewrite <- Rabs_R0 at 1. apply map_nth. Qed.

Lemma lens_t t : (1 <= t <= 10)%Z -> length (@lo_r R exactR t) = (2 * Z.to_nat t)%nat /\ length (@hi_r R exactR t) = (2 * Z.to_nat t)%nat.
Proof. intros. rewrite hi_r_length. split; apply lo_r_length; auto. Qed.

Lemma row_abs t N r x : (1 <= t <= 10)%Z -> (0 < N)%nat -> (r < 2 * N)%nat ->
  lsum (srow_at (@dm R exactR t (2 * N)) r) (fun e => Rabs (snd e * x (fst e))) =
  mv (2 * N) (HA_ t (2 * N)) (fun j => Rabs (x j)) r /\
  length (srow_at (@dm R exactR t (2 * N)) r) = (2 * Z.to_nat t)%nat.
Proof.
  intros Ht HN Hr. destruct (lens_t t Ht) as [L1 L2].
  unfold dm. rewrite dmat_row by (auto; apply even2).
  replace (2 * N / 2)%nat with N by (rewrite Nat.mul_comm, Nat.div_mul; lia).
  unfold HA_.
  destruct (Nat.ltb_spec r N).
  - rewrite drow_length. split; auto.
    destruct (AM_A (map Rabs (@lo_r R exactR t)) (map Rabs (@hi_r R exactR t)) N (fun j => Rabs (x j)) r H) as [-> _].
    rewrite drow_lsum by lia. rewrite map_length. apply rsum_ext. intros k Hk. cbn [fst snd].
    rewrite nth_abs, Rabs_mult. reflexivity.
  - rewrite drow_length. split; auto.
    destruct (AM_A (map Rabs (@lo_r R exactR t)) (map Rabs (@hi_r R exactR t)) N (fun j => Rabs (x j)) (r - N) ltac:(lia)) as [_ E].
    replace (N + (r - N))%nat with r in E by lia. rewrite E.
    rewrite drow_lsum by lia. rewrite map_length. apply rsum_ext. intros k Hk. cbn [fst snd].
    rewrite nth_abs, Rabs_mult. reflexivity.
Qed.

(** rows of the transposed matrix *)
Lemma stranspose_lsum (m : smat R) c (F : nat * R -> R) : (c < scols m)%nat -> length (srow m) = srows m ->
  lsum (srow_at (stranspose m) c) F =
  rsum (srows m) (fun i => lsum (srow_at m i) (fun e => if Nat.eqb (fst e) c then F (i, snd e) else 0)).
Proof.
  intros Hc HL. unfold srow_at at 1. unfold stranspose; cbn [srow].
  rewrite nth_map_seq by auto. rewrite lsum_flat_map.
  rewrite (lsum_combine_seq _ [] (fun ir => _)). rewrite HL. apply rsum_ext. intros i Hi. cbn [fst snd].
  rewrite lsum_map, lsum_filter. apply lsum_ext. intros e _. reflexivity.
Qed.

Lemma dmT_lsum lo hi n c (F : nat * R -> R) (G : R -> R) y : (c < n)%nat -> Nat.even n = true ->
  (0 < length lo)%nat -> (0 < length hi)%nat ->
  (forall i v, F (i, v) = G v * y i) ->
  lsum (srow_at (stranspose (@dmat_pure R exactR n lo hi)) c) F = mvT n (AM (map G lo) (map G hi) n) y c.
Proof.
  intros Hc He H1 H2 HF. rewrite stranspose_lsum by (auto; apply dmat_pure_swf; lia).
  change (srows (dmat_pure n lo hi)) with n. unfold mvT. apply rsum_ext. intros i Hi.
  rewrite dmat_row by auto. unfold AM, ent.
  assert (EG : forall f k, (k < length f)%nat -> nth k (map G f) 0 = G (nth k f 0)).
  { intros f k Hk. rewrite (nth_indep _ 0 (G 0)) by (rewrite map_length; auto). apply map_nth. }
  destruct (Nat.ltb_spec i (n / 2)); rewrite drow_lsum by lia; cbn [fst snd]; rewrite map_length;
    rewrite <- rsum_scal_r; apply rsum_ext; intros k Hk; rewrite EG by auto;
    match goal with |- context[if ?b then _ else _] => destruct b end; rewrite ?HF; change (@a0 R exactR) with 0; ring.
Qed.

Lemma lsum_length {X} (l : list X) : lsum l (fun _ => 1) = INR (length l).
Proof. induction l; [reflexivity|]. cbn [lsum length]. rewrite IHl, S_INR. ring. Qed.

Lemma rsum_const n c : rsum n (fun _ => c) = INR n * c.
Proof. induction n; [simpl; ring|]. cbn [rsum]. rewrite IHn, S_INR. ring. Qed.

Lemma even_split N c : (c < 2 * N)%nat -> exists q p, (c = 2 * q + p)%nat /\ (q < N)%nat /\ (p < 2)%nat.
Proof.
  intros Hc. exists (c / 2)%nat, (c mod 2)%nat. pose proof (Nat.div_mod c 2 ltac:(lia)).
  pose proof (Nat.mod_upper_bound c 2 ltac:(lia)). repeat split; lia.
Qed.

Lemma dmT_length lo hi t N c : length lo = (2 * t)%nat -> length hi = (2 * t)%nat ->
  (0 < t <= N)%nat -> (c < 2 * N)%nat ->
  length (srow_at (stranspose (@dmat_pure R exactR (2 * N) lo hi)) c) = (2 * t)%nat.
Proof.
  intros H1 H2 Ht Hc. apply INR_eq. rewrite <- lsum_length.
  rewrite (dmT_lsum _ _ (2 * N) c (fun _ => 1) (fun v => 1) (fun _ => 1)) by (auto using even2; try lia; intros; ring).
  destruct (even_split N c Hc) as (q & p & -> & Hq & Hp).
  rewrite (AM_T _ _ t) by (rewrite ?map_length; auto; lia).
  assert (E : forall (l : list R) k, (k < length l)%nat -> nth k (map (fun _ => 1) l) 0 = 1).
  { intros l k Hk. rewrite (nth_indep _ 0 1) by (rewrite map_length; auto). apply (map_nth (fun _ => 1) l 0). }
  rewrite <- rsum_plus. rewrite (rsum_ext t _ (fun _ => 2)) by (intros b Hb; rewrite !E by lia; ring).
  rewrite rsum_const, mult_INR. simpl (INR 2). ring.
Qed.

Lemma rowT_abs t N c y : (1 <= t <= 10)%Z -> (Z.to_nat t <= N)%nat -> (c < 2 * N)%nat ->
  lsum (srow_at (@dmT R exactR t (2 * N)) c) (fun e => Rabs (snd e * y (fst e))) =
  mvT (2 * N) (HA_ t (2 * N)) (fun j => Rabs (y j)) c /\
  length (srow_at (@dmT R exactR t (2 * N)) c) = (2 * Z.to_nat t)%nat.
Proof.
  intros Ht HN Hc. destruct (lens_t t Ht) as [L1 L2]. unfold dmT, dm. split.
  - apply dmT_lsum; auto using even2; try lia. intros. cbn [fst snd]. apply Rabs_mult.
  - apply dmT_length; auto; lia.
Qed.

(** ** the four filters *)
Definition g_ t := gam (2 * Z.to_nat t).
Definition n_ t := nu (2 * Z.to_nat t).

Lemma row_err t N r x : (1 <= t <= 10)%Z -> (0 < N)%nat -> (r < 2 * N)%nat ->
  Rabs (@rowdot R A (srow_at (@dm R A t (2 * N)) r) x - mv (2 * N) (HM t (2 * N)) x r) <=
  g_ t * mv (2 * N) (HA_ t (2 * N)) (fun j => Rabs (x j)) r + n_ t.
Proof.
  intros Ht HN Hr. destruct (row_abs t N r x Ht HN Hr) as [E1 E2].
  pose proof (rowdot_err _ _ x (@dm_rel R R A exactR tapr tapr_0 tapr_opp t (2 * N) r (lo_tapr t Ht))) as H.
  rewrite E1, E2 in H. destruct (lens_t t Ht) as [L1 L2].
  assert (E3 : @rowdot R exactR (srow_at (@dm R exactR t (2 * N)) r) x = mv (2 * N) (HM t (2 * N)) x r)
    by (apply dmat_mv; auto using even2; lia).
  rewrite E3 in H. exact H.
Qed.
Lemma rowT_err t N c y : (1 <= t <= 10)%Z -> (Z.to_nat t <= N)%nat -> (c < 2 * N)%nat ->
  Rabs (@rowdot R A (srow_at (@dmT R A t (2 * N)) c) y - mvT (2 * N) (HM t (2 * N)) y c) <=
  g_ t * mvT (2 * N) (HA_ t (2 * N)) (fun j => Rabs (y j)) c + n_ t.
Proof.
  intros Ht HN Hr. destruct (rowT_abs t N c y Ht HN Hr) as [E1 E2].
  pose proof (rowdot_err _ _ y (@dmT_rel R R A exactR tapr tapr_0 tapr_opp t (2 * N) c (lo_tapr t Ht))) as H.
  rewrite E1, E2 in H. destruct (lens_t t Ht) as [L1 L2].
  assert (E3 : @rowdot R exactR (srow_at (@dmT R exactR t (2 * N)) c) y = mvT (2 * N) (HM t (2 * N)) y c)
    by (apply dmat_mvT; auto using even2; lia).
  rewrite E3 in H. exact H.
Qed.

Lemma afilt_err f f' n x i : Forall2 tapr f f' ->
  Rabs (@afilt R A f n x i - @afilt R exactR f' n x i) <=
  gam (length f') * rsum (length f') (fun k => Rabs (nth k f' 0) * Rabs (x ((2 * i + k) mod n)%nat)) + nu (length f').
Proof.
  intros H. unfold afilt at 1. unfold sumT. rewrite (fold_map (fun j => @amul R A _ _)).
  rewrite (rounding_zero _ _ _ HR). unfold afilt. rewrite sumT_rsum. cbn [amul exactR].
  rewrite (Forall2_len H).
  set (gx := fun j => nth j f' 0 * x ((2 * i + j) mod n)%nat).
  rewrite (rsum_ext (length f') (fun j => x _ * nth j f' (@a0 R exactR)) gx) by (intros; unfold gx; apply Rmult_comm).
  rewrite (rsum_ext (length f') (fun k => Rabs _ * Rabs _) (fun k => Rabs (gx k))) by (intros; unfold gx; rewrite Rabs_mult; reflexivity).
  rewrite <- (lsum_seq0 (length f') gx), <- (lsum_seq0 (length f') (fun k => Rabs (gx k))).
  rewrite <- (lsum_id gx). rewrite <- (lsum_map gx (seq 0 (length f')) Rabs).
  assert (EL : length f' = length (map gx (seq 0 (length f')))) by (rewrite map_length, seq_length; auto).
  rewrite EL at 3. rewrite EL at 5. 
  apply sum_err. apply Forall2_map_same. intros k _. unfold gx.
  apply mul_close. apply (Forall2_nth tapr f f' 0 0 H).
  pose proof tapr_0 as T0. rewrite (rounding_zero _ _ _ HR) in T0. exact T0.
Qed.

Lemma afilt_both t N x i : (1 <= t <= 10)%Z -> (i < N)%nat ->
  Rabs (@afilt R A (@lo_r R A t) (2 * N) x i - mv (2 * N) (HM t (2 * N)) x i) <=
    g_ t * mv (2 * N) (HA_ t (2 * N)) (fun j => Rabs (x j)) i + n_ t /\
  Rabs (@afilt R A (@hi_r R A t) (2 * N) x i - mv (2 * N) (HM t (2 * N)) x (N + i)) <=
    g_ t * mv (2 * N) (HA_ t (2 * N)) (fun j => Rabs (x j)) (N + i) + n_ t.
Proof.
  intros Ht Hi. destruct (lens_t t Ht) as [L1 L2].
  destruct (AM_A (map Rabs (@lo_r R exactR t)) (map Rabs (@hi_r R exactR t)) N (fun j => Rabs (x j)) i Hi) as [E1 E2].
  destruct (AM_A (@lo_r R exactR t) (@hi_r R exactR t) N x i Hi) as [E3 E4].
  fold (HA_ t (2 * N)) in E1, E2. fold (HM t (2 * N)) in E3, E4. rewrite E1, E2, E3, E4, !map_length.
  split.
  - pose proof (afilt_err _ _ (2 * N) x i (lo_tapr t Ht)) as H. unfold g_, n_. rewrite <- L1.
    unfold afilt at 2 in H. rewrite sumT_rsum in H. cbn [amul exactR] in H.
    rewrite (rsum_ext _ (fun j => x _ * _) (fun k => nth k (@lo_r R exactR t) 0 * x ((2 * i + k) mod (2 * N))%nat)) in H
      by (intros; apply Rmult_comm).
    rewrite (rsum_ext (length (@lo_r R exactR t)) (fun k => nth k (map Rabs _) 0 * _) (fun k => Rabs (nth k (@lo_r R exactR t) 0) * Rabs (x ((2 * i + k) mod (2 * N))%nat)))
      by (intros; rewrite nth_abs; reflexivity).
    exact H.
  - pose proof (afilt_err _ _ (2 * N) x i (hi_tapr t Ht)) as H. unfold g_, n_. rewrite <- L2.
    unfold afilt at 2 in H. rewrite sumT_rsum in H. cbn [amul exactR] in H.
    rewrite (rsum_ext _ (fun j => x _ * _) (fun k => nth k (@hi_r R exactR t) 0 * x ((2 * i + k) mod (2 * N))%nat)) in H
      by (intros; apply Rmult_comm).
    rewrite (rsum_ext (length (@hi_r R exactR t)) (fun k => nth k (map Rabs _) 0 * _) (fun k => Rabs (nth k (@hi_r R exactR t) 0) * Rabs (x ((2 * i + k) mod (2 * N))%nat)))
      by (intros; rewrite nth_abs; reflexivity).
    exact H.
Qed.

Lemma fold_pairs {X T} (B : Arith T) (p q : X -> T) l a :
  fold_left (fun acc j => @aadd T B (@aadd T B acc (p j)) (q j)) l a =
  fold_left (@aadd T B) (flat_map (fun j => [p j; q j]) l) a.
Proof. revert a; induction l; intros; cbn [fold_left flat_map app]; auto. Qed.
Lemma flat_pairs_length {X} (p q : X -> R) l : length (flat_map (fun j => [p j; q j]) l) = (2 * length l)%nat.
Proof. induction l; simpl; lia. Qed.

Lemma sfilt_list {T} (B : Arith T) (lr hr : list T) N low high c t : length lr = (2 * t)%nat ->
  @sfilt T B lr hr N low high c =
  fold_left (@aadd T B) (flat_map (fun jj =>
     let k := ((N - (2 * t - 2) / 2 + c / 2 + jj) mod N)%nat in
     let tap := ((if Nat.even c then 1 else 0) + 2 * jj)%nat in
     [@amul T B (nth tap lr (@a0 T B)) (low k); @amul T B (nth tap hr (@a0 T B)) (high k)]) (seq 0 t)) (@a0 T B).
Proof.
  intros L. unfold sfilt. rewrite L. replace (2 * t / 2)%nat with t by (rewrite Nat.mul_comm, Nat.div_mul; lia).
  rewrite <- fold_pairs. reflexivity.
Qed.

Lemma fold_plus l : fold_left (@aadd R exactR) l 0 = lsum l (fun m => m).
Proof. rewrite <- (Rplus_0_l (lsum l _)). apply (fold_left_lsum l (fun m => m)). Qed.

Lemma sfilt_err t N low high c : (1 <= t <= 10)%Z -> (Z.to_nat t <= N)%nat -> (c < 2 * N)%nat ->
  let y := fun r => if Nat.ltb r N then low r else high (r - N)%nat in
  Rabs (@sfilt R A (rev (@lo_r R A t)) (rev (@hi_r R A t)) N low high c - mvT (2 * N) (HM t (2 * N)) y c) <=
  g_ t * mvT (2 * N) (HA_ t (2 * N)) (fun j => Rabs (y j)) c + n_ t.
Proof.
  intros Ht HN Hc y. destruct (lens_t t Ht) as [L1 L2].
  assert (E1 : mvT (2 * N) (HM t (2 * N)) y c =
     @sfilt R exactR (rev (@lo_r R exactR t)) (rev (@hi_r R exactR t)) N low high c).
  { symmetry. apply (sfilt_mvT _ _ (Z.to_nat t)); auto; lia. }
  assert (E2 : mvT (2 * N) (HA_ t (2 * N)) (fun j => Rabs (y j)) c =
     @sfilt R exactR (map Rabs (rev (@lo_r R exactR t))) (map Rabs (rev (@hi_r R exactR t))) N
        (fun k => Rabs (low k)) (fun k => Rabs (high k)) c).
  { symmetry. rewrite !map_rev. rewrite (sfilt_mvT _ _ (Z.to_nat t)) by (rewrite ?map_length; auto; lia).
    apply mvT_ext. intros r Hr. unfold y. destruct (Nat.ltb r N); reflexivity. }
  assert (EL : length (@lo_r R A t) = length (@lo_r R exactR t)) by (apply (Forall2_len (lo_tapr t Ht))).
  rewrite E1, E2. clear E1 E2 y.
  rewrite !(sfilt_list _ _ _ _ _ _ _ (Z.to_nat t)) by (rewrite ?map_length, rev_length; congruence).
  rewrite (rounding_zero _ _ _ HR). change (@a0 R exactR) with 0. cbn [amul exactR]. rewrite !fold_plus. cbv zeta.
  pose proof (Forall2_rev _ _ _ (lo_tapr t Ht)) as FL. pose proof (Forall2_rev _ _ _ (hi_tapr t Ht)) as FH.
  set (lr := rev (@lo_r R exactR t)) in *. set (hr := rev (@hi_r R exactR t)) in *.
  set (K := fun jj => ((N - (2 * Z.to_nat t - 2) / 2 + c / 2 + jj) mod N)%nat).
  set (tap := fun jj => ((if Nat.even c then 1 else 0) + 2 * jj)%nat).
  set (F := flat_map (fun jj => [nth (tap jj) lr 0 * low (K jj); nth (tap jj) hr 0 * high (K jj)]) (seq 0 (Z.to_nat t))).
  assert (X : lsum (flat_map (fun jj => [nth (tap jj) (map Rabs lr) 0 * Rabs (low (K jj));
                                         nth (tap jj) (map Rabs hr) 0 * Rabs (high (K jj))]) (seq 0 (Z.to_nat t)))
                (fun m => m) = lsum F Rabs).
  { unfold F. rewrite !lsum_flat_map. apply lsum_ext. intros jj _. cbn [lsum].
    rewrite !nth_abs, !Rabs_mult. reflexivity. }
  assert (LF : length F = (2 * Z.to_nat t)%nat).
  { unfold F. rewrite <- (seq_length (Z.to_nat t) 0) at 2.
    exact (flat_pairs_length (fun jj => nth (tap jj) lr 0 * low (K jj)) (fun jj => nth (tap jj) hr 0 * high (K jj)) _). }
  pose proof tapr_0 as T0. rewrite (rounding_zero _ _ _ HR) in T0. change (@a0 R exactR) with 0 in T0.
  set (F' := flat_map (fun jj => [@amul R A (nth (tap jj) (rev (@lo_r R A t)) 0) (low (K jj));
                                  @amul R A (nth (tap jj) (rev (@hi_r R A t)) 0) (high (K jj))]) (seq 0 (Z.to_nat t))).
  assert (FF : Forall2 close4 F' F).
  { apply (Forall2_flat_map eq).
    - intros jj ? <-. constructor; [|constructor; [|constructor]]; apply mul_close; apply Forall2_nth; auto.
    - clear. induction (seq 0 (Z.to_nat t)); auto. }
  pose proof (sum_err F' F FF) as H. rewrite LF, <- X in H. exact H.
Qed.

(** ** the matrix of magnitudes in the Euclidean norm *)
Lemma schur n M r c x : (forall i j, 0 <= M i j) -> 0 <= r ->
  (forall i, (i < n)%nat -> mv n M (fun _ => 1) i <= r) -> (forall j, (j < n)%nat -> mvT n M (fun _ => 1) j <= c) ->
  nrm1 n (mv n M x) <= r * c * nrm1 n x.
Proof.
  intros HM0 Hr H1 H2. unfold nrm1.
  eapply Rle_trans.
  { apply (rsum_le n _ (fun i => r * rsum n (fun j => M i j * sq (x j)))). intros i Hi.
    eapply Rle_trans; [apply cs_weighted|].
    rewrite (rsum_ext n (fun j => Rabs (M i j) * sq (x j)) (fun j => M i j * sq (x j))) by (intros; rewrite Rabs_pos_eq; auto).
    apply Rmult_le_compat_r.
    - apply rsum_nonneg. intros. apply Rmult_le_pos; auto. apply sq_pos.
    - rewrite (rsum_ext n _ (fun j => M i j * 1)) by (intros; rewrite Rabs_pos_eq; auto; ring). apply H1; auto. }
  rewrite rsum_scal, rsum_swap, Rmult_assoc. apply Rmult_le_compat_l; auto.
  rewrite <- rsum_scal. apply rsum_le. intros j Hj. rewrite rsum_scal_r.
  apply Rmult_le_compat_r; [apply sq_pos|].
  eapply Rle_trans; [|apply (H2 j Hj)]. apply Req_le. unfold mvT. apply rsum_ext. intros; ring.
Qed.
Lemma schurT n M r c x : (forall i j, 0 <= M i j) -> 0 <= c ->
  (forall i, (i < n)%nat -> mv n M (fun _ => 1) i <= r) -> (forall j, (j < n)%nat -> mvT n M (fun _ => 1) j <= c) ->
  nrm1 n (mvT n M x) <= c * r * nrm1 n x.
Proof. intros H0 Hc H1 H2. apply (schur n (fun i j => M j i)); auto. Qed.

Definition hsum (t : Z) : R := sqrt 2 * Q2R (coefficient_sum t).

Definition sums_ok (t : Z) : bool :=
  let n := Z.to_nat t in
  Qle_bool (qsum (2 * n) (fun k => Qabs (nth k (loQ t) 0%Q))) (coefficient_sum t) &&
  Qle_bool (qsum (2 * n) (fun k => Qabs (nth k (hiQ t) 0%Q))) (coefficient_sum t) &&
  Qle_bool (qsum n (fun b => Qabs (nth (2 * b + 0) (loQ t) 0%Q) + Qabs (nth (2 * b + 0) (hiQ t) 0%Q))%Q) (coefficient_sum t) &&
  Qle_bool (qsum n (fun b => Qabs (nth (2 * b + 1) (loQ t) 0%Q) + Qabs (nth (2 * b + 1) (hiQ t) 0%Q))%Q) (coefficient_sum t).
Lemma sums : forallb sums_ok [1; 2; 3; 4; 5; 6; 7; 8; 9; 10]%Z = true.
Proof. vm_compute. reflexivity. Qed.

Lemma abs_up l k : nth k (map Rabs (map up2 l)) 0 = up2 (Qabs (nth k l 0%Q)).
Proof.
  rewrite nth_abs, nth_up. unfold up2. rewrite Q2R_abs, Rabs_mult, (Rabs_pos_eq (sqrt 2)) by apply sqrt_pos. reflexivity.
Qed.
Lemma up2_sum n f c : Qle_bool (qsum n f) c = true -> rsum n (fun k => up2 (f k)) <= sqrt 2 * Q2R c.
Proof.
  intros H. apply Qle_bool_iff, Qle_Rle in H. rewrite qsum_rsum in H.
  unfold up2. rewrite rsum_scal. apply Rmult_le_compat_l; auto. apply sqrt_pos.
Qed.

Lemma HA_pos t n i j : 0 <= HA_ t n i j.
Proof.
  unfold HA_, AM, ent. assert (H : forall f k, 0 <= nth k (map Rabs f) 0) by (intros; rewrite nth_abs; apply Rabs_pos).
  destruct (Nat.ltb i (n / 2)); apply rsum_nonneg; intros k _;
    match goal with |- context[if ?b then _ else _] => destruct b end; auto; lra.
Qed.

Lemma HA_sums t N : (1 <= t <= 10)%Z -> (Z.to_nat t <= N)%nat ->
  (forall i, (i < 2 * N)%nat -> mv (2 * N) (HA_ t (2 * N)) (fun _ => 1) i <= hsum t) /\
  (forall j, (j < 2 * N)%nat -> mvT (2 * N) (HA_ t (2 * N)) (fun _ => 1) j <= hsum t).
Proof.
  intros Ht HN. destruct (lens_t t Ht) as [L1 L2].
  assert (Hs : sums_ok t = true).
  { clear HN L1 L2. revert t Ht. refine (Z10_cases _ _). intros t Hin.
    pose proof sums as D. rewrite forallb_forall in D. apply (D t Hin). }
  unfold sums_ok in Hs. rewrite !andb_true_iff in Hs. destruct Hs as [[[S1 S2] S3] S4].
  split.
  - intros i Hi. unfold HA_. destruct (Nat.lt_ge_cases i N) as [Hl|Hl].
    + destruct (AM_A (map Rabs (@lo_r R exactR t)) (map Rabs (@hi_r R exactR t)) N (fun _ => 1) i Hl) as [-> _].
      rewrite map_length, L1, lo_up.
      rewrite (rsum_ext _ _ (fun k => up2 (Qabs (nth k (loQ t) 0%Q)))) by (intros; rewrite abs_up; ring).
      apply up2_sum; auto.
    + destruct (AM_A (map Rabs (@lo_r R exactR t)) (map Rabs (@hi_r R exactR t)) N (fun _ => 1) (i - N) ltac:(lia)) as [_ E].
      replace (N + (i - N))%nat with i in E by lia. rewrite E. clear E.
      rewrite map_length, L2, hi_up.
      rewrite (rsum_ext _ _ (fun k => up2 (Qabs (nth k (hiQ t) 0%Q)))) by (intros; rewrite abs_up; ring).
      apply up2_sum; auto.
  - intros c Hc. destruct (even_split N c Hc) as (q & p & -> & Hq & Hp).
    unfold HA_. rewrite (AM_T _ _ (Z.to_nat t)) by (rewrite ?map_length; auto).
    rewrite <- rsum_plus, lo_up, hi_up.
    rewrite (rsum_ext _ _ (fun b => up2 (Qabs (nth (2 * b + p) (loQ t) 0%Q) + Qabs (nth (2 * b + p) (hiQ t) 0%Q))%Q)).
    2:{ intros b _. rewrite !abs_up. unfold up2. rewrite Q2R_plus. ring. }
    apply up2_sum. destruct p as [|[|p]]; auto; lia.
Qed.
Lemma hsum_pos t : 0 <= hsum t.
Proof.
  unfold hsum. apply Rmult_le_pos; [apply sqrt_pos|].
  replace 0 with (Q2R 0) by apply RMicromega.Q2R_0. apply Qle_Rle. unfold coefficient_sum.
  destruct t as [|p|p]; try apply Qle_refl.
  repeat (destruct p; try apply Qle_refl; try (unfold Qle; simpl; lia)).
Qed.

Lemma HA_l2 t N x : (1 <= t <= 10)%Z -> (Z.to_nat t <= N)%nat ->
  nrm1 (2 * N) (mv (2 * N) (HA_ t (2 * N)) x) <= sq (hsum t) * nrm1 (2 * N) x /\
  nrm1 (2 * N) (mvT (2 * N) (HA_ t (2 * N)) x) <= sq (hsum t) * nrm1 (2 * N) x.
Proof.
  intros Ht HN. destruct (HA_sums t N Ht HN) as [H1 H2]. split.
  - apply schur; auto using hsum_pos, HA_pos.
  - apply schurT; auto using hsum_pos, HA_pos.
Qed.
End Round.
