(** * P_ZeroDer: the matrix with edge continuation (C79). *)
Require Import List Bool Arith ZArith QArith Qabs Qreals Lia Reals Lra Sorting.Sorted.
Require Import ZifyBool.
Require Import Verif.M_Base Verif.M_Wavelet Verif.M_Buffer Verif.M_Real Verif.M_ZeroDer Verif.S_ZeroDer.
Require Import Verif.P_Base Verif.P_Wavelet Verif.P_Sum Verif.P_Lin Verif.P_Paths Verif.P_PR Verif.P_Rec.
Import ListNotations.
Open Scope nat_scope.

Section Rows.
Context {T : Type} {A : Arith T}.

Definition zj0 (L i : nat) : Z := (2 * Z.of_nat i - (Z.of_nat L / 2 - 1))%Z.
Definition zlp (f : list T) (j0 : Z) : T :=
  fold_left (fun acc k => aadd acc (nth k f a0)) (seq 0 (Z.to_nat (- j0))) a0.
Definition zrp (n : nat) (f : list T) (j0 : Z) : T :=
  fold_left (fun acc k => aadd acc (nth (length f - 1 - k) f a0))
    (seq 0 (Z.to_nat (j0 + Z.of_nat (length f) - Z.of_nat n))) a0.
Definition zent (n : nat) (f : list T) (j0 : Z) (k : nat) : list (nat * T) :=
  let j := (j0 + Z.of_nat k)%Z in
  if (j =? 0)%Z then [(Z.to_nat j, aadd (zlp f j0) (nth k f a0))]
  else if (j =? Z.of_nat n - 1)%Z then [(Z.to_nat j, aadd (zrp n f j0) (nth k f a0))]
  else if (0 <? j)%Z && (j <? Z.of_nat n - 1)%Z then [(Z.to_nat j, nth k f a0)]
  else [].
Definition zrow (n : nat) (f : list T) (i : nat) : list (nat * T) :=
  flat_map (zent n f (zj0 (length f) i)) (seq 0 (length f)).

Lemma zent_col n f j0 k e : 0 < n -> In e (zent n f j0 k) -> Z.of_nat (fst e) = (j0 + Z.of_nat k)%Z /\ fst e < n.
Proof.
  intros Hn. unfold zent. set (j := (j0 + Z.of_nat k)%Z).
  destruct (Z.eqb_spec j 0); [intros [<-|[]]; cbn [fst]; lia|].
  destruct (Z.eqb_spec j (Z.of_nat n - 1)); [intros [<-|[]]; cbn [fst]; lia|].
  destruct ((0 <? j)%Z && (j <? Z.of_nat n - 1)%Z) eqn:E; [intros [<-|[]]; cbn [fst]; lia|intros []].
Qed.

Lemma zrow_cols n f i e : 0 < n -> In e (zrow n f i) -> fst e < n.
Proof. intros Hn He. apply in_flat_map in He as (k & _ & He). apply zent_col in He; lia. Qed.

Lemma to_int_small z : (- 2 ^ 31 <= z < 2 ^ 31)%Z -> to_int z = z.
Proof. intros H. unfold to_int. rewrite Z.mod_small by lia. lia. Qed.

Lemma zero_der_row_ok n (f : list T) t i :
  length f = 2 * t -> 1 <= t <= 10 -> 2 * t <= n -> (Z.of_nat n <= 2 ^ 31 - 10)%Z -> i < n / 2 ->
  zero_der_row n f i = Ok (zrow n f i).
Proof.
  intros HL Ht Hn Hb Hi. pose proof (half_even _ _ Hi) as Hi2.
  unfold zero_der_row, zrow. rewrite (to_int_small (Z.of_nat i)) by lia.
  assert (Ej : (- ((Z.of_nat (length f) - 1) ÷ 2) + 2 * Z.of_nat i = zj0 (length f) i)%Z).
  { unfold zj0. rewrite HL. Z.to_euclidean_division_equations; lia. }
  rewrite Ej. assert (Hj0 : (zj0 (length f) i = 2 * Z.of_nat i - (Z.of_nat t - 1))%Z) by (unfold zj0; rewrite HL; Z.to_euclidean_division_equations; lia).
  set (j0 := zj0 (length f) i) in *. clearbody j0. clear Ej.
  rewrite guard_true by (unfold int_ok; lia). cbn [bind].
  rewrite (to_int_small (j0 + _ - _)) by lia.
  rewrite (loop_fold _ 0 _ (fun k acc => aadd acc (nth k f a0))).
  2:{ intros k acc Hk. rewrite (rd_nth _ _ a0) by lia. reflexivity. }
  cbn [bind]. fold (zlp f j0).
  rewrite (loop_fold _ 0 _ (fun k acc => aadd acc (nth (length f - 1 - k) f a0))).
  2:{ intros k acc Hk. rewrite guard_true by lia. cbn [bind]. rewrite (rd_nth _ _ a0) by lia. reflexivity. }
  cbn [bind]. fold (zrp n f j0).
  match goal with |- loop _ _ ?b _ = _ => set (body := b) end.
  destruct (loop_inv (length f) 0 body (fun m row => row = flat_map (zent n f j0) (seq 0 m)) []) as (st & E & ->); auto.
  intros m row Hm ->. eexists. split; [|reflexivity].
  rewrite seq_S, flat_map_app. cbn [flat_map Nat.add]. rewrite app_nil_r.
  assert (G : forall v, (0 <= j0 + Z.of_nat m < Z.of_nat n)%Z ->
     append_row n (flat_map (zent n f j0) (seq 0 m)) (Z.to_nat (j0 + Z.of_nat m)) v =
     Ok (flat_map (zent n f j0) (seq 0 m) ++ [(Z.to_nat (j0 + Z.of_nat m), v)])).
  { intros v Hv. unfold append_row. rewrite guard_true by lia. cbn [bind]. rewrite guard_true; [reflexivity|].
    apply forallb_forall. intros e He. apply in_flat_map in He as (k & Hk & He). apply in_seq in Hk.
    apply zent_col in He; [|lia]. apply Nat.ltb_lt. lia. }
  unfold body. cbn [Nat.add]. rewrite guard_true by (unfold int_ok; lia). cbn [bind].
  rewrite (rd_nth _ _ a0) by lia. cbn [bind].
  set (row := flat_map (zent n f j0) (seq 0 m)) in *. clearbody row. unfold zent.
  destruct (Z.eqb_spec (j0 + Z.of_nat m) 0) as [E|E]; [apply G; lia|].
  destruct (Z.eqb_spec (j0 + Z.of_nat m) (Z.of_nat n - 1)) as [E'|E']; [apply G; lia|].
  destruct ((0 <? j0 + Z.of_nat m)%Z && (j0 + Z.of_nat m <? Z.of_nat n - 1)%Z) eqn:E2; [apply G; lia|].
  rewrite app_nil_r. reflexivity.
Qed.

Definition zmat (n : nat) (lo hi : list T) : smat T :=
  SMat n n (map (zrow n lo) (seq 0 (n / 2)) ++ map (zrow n hi) (seq 0 (n / 2))
            ++ repeat [] (n - (n / 2 + n / 2))).
Lemma zmat_swf n lo hi : 0 < n -> swf (zmat n lo hi).
Proof.
  intros Hn. split; simpl.
  - rewrite !app_length, !map_length, !seq_length, repeat_length.
    pose proof (Nat.div_mod n 2 ltac:(lia)). lia.
  - apply Forall_forall. intros row Hrow. apply Forall_forall. intros e He.
    apply in_app_or in Hrow as [Hr|Hr]; [|apply in_app_or in Hr as [Hr|Hr]].
    + apply in_map_iff in Hr as (i & <- & _). eapply zrow_cols; eauto.
    + apply in_map_iff in Hr as (i & <- & _). eapply zrow_cols; eauto.
    + apply repeat_spec in Hr. subst row. destruct He.
Qed.

Lemma zero_der_ok n t :
  (1 <= t <= 10)%Z -> 2 * Z.to_nat t <= n -> (Z.of_nat n <= 2 ^ 31 - 10)%Z ->
  daubechies_mat_pad n (t * 2) ZeroDerivative = Ok (zmat n (lo_r t) (hi_r t)).
Proof.
  intros Ht Hn Hb. unfold daubechies_mat_pad.
  rewrite guard_true by (rewrite Z.even_mul; apply orb_true_r). cbn [bind].
  rewrite guard_true by lia. cbn [bind].
  rewrite Z.div_mul by lia. unfold dbwavf. rewrite guard_true by lia. cbn [bind].
  unfold orthfilt. rewrite !rev_involutive.
  fold (lo_r t). fold (hi_r t).
  pose proof (lo_r_length t Ht) as HL. pose proof (hi_r_length t) as HH.
  rewrite (tabulateM_ok _ _ (zrow n (lo_r t))) by (intros; apply (zero_der_row_ok n _ (Z.to_nat t)); lia).
  cbn [bind].
  rewrite (tabulateM_ok _ _ (zrow n (hi_r t))) by (intros; apply (zero_der_row_ok n _ (Z.to_nat t)); lia).
  reflexivity.
Qed.

End Rows.

Section RR.
Local Existing Instance exactR.
Open Scope R_scope.

Lemma rsum_low L f (j0 : Z) : (- j0 <= Z.of_nat L)%Z ->
  rsum L (fun k => if (j0 + Z.of_nat k <? 0)%Z then f k else 0) = rsum (Z.to_nat (- j0)) f.
Proof.
  intros H. replace L with (Z.to_nat (- j0) + (L - Z.to_nat (- j0)))%nat at 1 by lia. rewrite rsum_split.
  rewrite (rsum_zero (L - _)) by (intros i Hi; destruct (Z.ltb_spec (j0 + Z.of_nat (Z.to_nat (- j0) + i)) 0); [lia|auto]).
  rewrite Rplus_0_r. apply rsum_ext. intros i Hi. destruct (Z.ltb_spec (j0 + Z.of_nat i) 0); [auto|lia].
Qed.
Lemma rsum_high L f (l : Z) : (l <= Z.of_nat L)%Z ->
  rsum L (fun k => if (Z.of_nat L - l <=? Z.of_nat k)%Z then f k else 0) = rsum (Z.to_nat l) (fun k => f (L - 1 - k)%nat).
Proof.
  intros H. rewrite rsum_rev.
  pose proof (rsum_low L (fun k => f (L - 1 - k)%nat) (- l) ltac:(lia)) as E. rewrite Z.opp_involutive in E. rewrite <- E.
  apply rsum_ext. intros i Hi.
  destruct (Z.leb_spec (Z.of_nat L - l) (Z.of_nat (L - 1 - i))), (Z.ltb_spec (- l + Z.of_nat i) 0); auto; lia.
Qed.
Lemma rsum_at L (j0 c : Z) v : (0 <= c - j0 < Z.of_nat L)%Z \/ v = 0 ->
  rsum L (fun k => if (j0 + Z.of_nat k =? c)%Z then v else 0) = v.
Proof.
  intros [H| ->].
  - rewrite (rsum_single L _ (Z.to_nat (c - j0))); [|lia|intros i Hi N; destruct (Z.eqb_spec (j0 + Z.of_nat i) c); [lia|auto]].
    destruct (Z.eqb_spec (j0 + Z.of_nat (Z.to_nat (c - j0))) c); [auto|lia].
  - apply rsum_zero. intros i _. destruct (_ =? _)%Z; auto.
Qed.

Lemma zlp_rsum (f : list R) j0 : zlp f j0 = rsum (Z.to_nat (- j0)) (fun k => nth k f 0).
Proof.
  unfold zlp. change (@a0 R exactR) with 0. rewrite (fold_left_lsum _ (fun k => nth k f 0)), lsum_seq0. lra.
Qed.
Lemma zrp_rsum n (f : list R) j0 :
  zrp n f j0 = rsum (Z.to_nat (j0 + Z.of_nat (length f) - Z.of_nat n)) (fun k => nth (length f - 1 - k) f 0).
Proof.
  unfold zrp. change (@a0 R exactR) with 0. rewrite (fold_left_lsum _ (fun k => nth (length f - 1 - k) f 0)), lsum_seq0. lra.
Qed.

Definition clampz (n : nat) (z : Z) : nat := Z.to_nat (Z.max 0 (Z.min (Z.of_nat n - 1) z)).

Lemma zrow_dot n (f : list R) t i x :
  length f = (2 * t)%nat -> (1 <= t)%nat -> (2 * t <= n)%nat -> (i < n / 2)%nat ->
  rowdot (zrow n f i) x =
  rsum (length f) (fun k => nth k f 0 * x (clampz n (zj0 (length f) i + Z.of_nat k))).
Proof.
  intros HL Ht Hn Hi. pose proof (half_even _ _ Hi) as Hi2.
  rewrite rowdot_lsum. unfold zrow. rewrite lsum_flat_map, lsum_seq0.
  assert (Hj0 : (zj0 (length f) i = 2 * Z.of_nat i - (Z.of_nat t - 1))%Z) by (unfold zj0; rewrite HL; Z.to_euclidean_division_equations; lia).
  set (j0 := zj0 (length f) i) in *. clearbody j0. set (L := length f) in *.
  set (lp := zlp f j0). set (rp := zrp n f j0).
  transitivity (rsum L (fun k =>
     (nth k f 0 * x (clampz n (j0 + Z.of_nat k))
      + (if (j0 + Z.of_nat k =? 0)%Z then lp * x 0%nat else 0)
      + (if (j0 + Z.of_nat k =? Z.of_nat n - 1)%Z then rp * x (n - 1)%nat else 0))
     - (if (j0 + Z.of_nat k <? 0)%Z then nth k f 0 * x 0%nat else 0)
     - (if (Z.of_nat L - (j0 + Z.of_nat L - Z.of_nat n) <=? Z.of_nat k)%Z then nth k f 0 * x (n - 1)%nat else 0))).
  { apply rsum_ext. intros k Hk. unfold zent. fold lp rp. change (@a0 R exactR) with 0. change (@aadd R exactR) with Rplus.
    unfold clampz.
    destruct (Z.eqb_spec (j0 + Z.of_nat k) 0) as [E|E].
    { destruct (Z.eqb_spec (j0 + Z.of_nat k) (Z.of_nat n - 1)); [lia|].
      destruct (Z.ltb_spec (j0 + Z.of_nat k) 0); [lia|].
      destruct (Z.leb_spec (Z.of_nat L - (j0 + Z.of_nat L - Z.of_nat n)) (Z.of_nat k)); [lia|].
      cbn [lsum fst snd]. replace (Z.to_nat (j0 + Z.of_nat k)) with 0%nat by lia.
      replace (Z.to_nat (Z.max 0 (Z.min (Z.of_nat n - 1) (j0 + Z.of_nat k)))) with 0%nat by lia. lra. }
    destruct (Z.eqb_spec (j0 + Z.of_nat k) (Z.of_nat n - 1)) as [E'|E'].
    { destruct (Z.ltb_spec (j0 + Z.of_nat k) 0); [lia|].
      destruct (Z.leb_spec (Z.of_nat L - (j0 + Z.of_nat L - Z.of_nat n)) (Z.of_nat k)); [lia|].
      cbn [lsum fst snd]. replace (Z.to_nat (j0 + Z.of_nat k)) with (n - 1)%nat by lia.
      replace (Z.to_nat (Z.max 0 (Z.min (Z.of_nat n - 1) (j0 + Z.of_nat k)))) with (n - 1)%nat by lia. lra. }
    destruct ((0 <? j0 + Z.of_nat k)%Z && (j0 + Z.of_nat k <? Z.of_nat n - 1)%Z) eqn:E2.
    - destruct (Z.ltb_spec (j0 + Z.of_nat k) 0); [lia|].
      destruct (Z.leb_spec (Z.of_nat L - (j0 + Z.of_nat L - Z.of_nat n)) (Z.of_nat k)); [lia|].
      cbn [lsum fst snd].
      replace (Z.to_nat (Z.max 0 (Z.min (Z.of_nat n - 1) (j0 + Z.of_nat k)))) with (Z.to_nat (j0 + Z.of_nat k)) by lia. lra.
    - cbn [lsum].
      destruct (Z.ltb_spec (j0 + Z.of_nat k) 0), (Z.leb_spec (Z.of_nat L - (j0 + Z.of_nat L - Z.of_nat n)) (Z.of_nat k)); try lia.
      + replace (Z.to_nat (Z.max 0 (Z.min (Z.of_nat n - 1) (j0 + Z.of_nat k)))) with 0%nat by lia. lra.
      + replace (Z.to_nat (Z.max 0 (Z.min (Z.of_nat n - 1) (j0 + Z.of_nat k)))) with (n - 1)%nat by lia. lra. }
  rewrite !rsum_minus, !rsum_plus.
  rewrite (rsum_low L (fun k => nth k f 0 * x 0%nat)) by lia.
  rewrite (rsum_high L (fun k => nth k f 0 * x (n - 1)%nat)) by lia.
  rewrite !rsum_at.
  - rewrite rsum_scal_r, (rsum_scal_r _ (x (n - 1)%nat) (fun k => nth (L - 1 - k) f 0)).
    unfold lp, rp. rewrite zlp_rsum, zrp_rsum. fold L. lra.
  - destruct (Z.le_gt_cases (j0 + Z.of_nat L - Z.of_nat n) 0).
    + right. unfold rp. rewrite zrp_rsum. fold L. replace (Z.to_nat _) with 0%nat by lia. simpl. lra.
    + left. lia.
  - destruct (Z.le_gt_cases (- j0) 0).
    + right. unfold lp. rewrite zlp_rsum. replace (Z.to_nat _) with 0%nat by lia. simpl. lra.
    + left. lia.
Qed.

Lemma edge_filter_rsum f x i :
  edge_filter f x i = rsum (length f) (fun k => nth k f 0 * nth (clampz (length x) (zj0 (length f) i + Z.of_nat k)) x 0).
Proof.
  unfold edge_filter. rewrite <- lsum_seq0. induction (seq 0 (length f)) as [|k l IH]; [reflexivity|].
  cbn [map fold_right lsum]. rewrite IH. reflexivity.
Qed.

Lemma zmat_2 (lo hi : list R) : length lo = 2%nat -> length hi = 2%nat -> forall x : nat -> R,
  dwt (map x (seq 0 2)) (zmat 2 lo hi) = Ok ([rowdot (zrow 2 lo 0) x], [rowdot (zrow 2 hi 0) x]).
Proof.
  intros H1 H2 x. destruct lo as [|a [|b [|]]]; try discriminate. destruct hi as [|c [|d [|]]]; try discriminate.
  unfold dwt, zmat. cbn [map seq length srows scols srow]. change (2 / 2)%nat with 1%nat.
  cbn. unfold zrow, zent, zlp, zrp, zj0. cbn. change (Pos.to_nat 1) with 1%nat. cbn. f_equal. f_equal; f_equal; lra.
Qed.

Lemma dwt_zmat (lo hi : list R) t (x : list R) :
  length lo = (2 * t)%nat -> length hi = (2 * t)%nat -> (1 <= t)%nat -> (2 * t <= length x)%nat ->
  dwt x (zmat (length x) lo hi) =
  Ok (map (edge_filter lo x) (seq 0 (length x / 2)), map (edge_filter hi x) (seq 0 (length x / 2))).
Proof.
  intros HL HH Ht Hn.
  assert (Ex := list_fun 0 x). set (n := length x) in *. set (y := fun i => nth i x 0) in *.
  assert (EF : forall f i, length f = (2 * t)%nat -> (i < n / 2)%nat -> rowdot (zrow n f i) y = edge_filter f x i).
  { intros f i Hf Hi. rewrite (zrow_dot n f t), edge_filter_rsum by auto. reflexivity. }
  rewrite Ex at 1.
  destruct (Nat.eq_dec n 2) as [E|E].
  { assert (t = 1)%nat by lia. clear Ex. clearbody n. subst n.
    rewrite zmat_2 by lia. change (2 / 2)%nat with 1%nat in *. cbn [seq map]. rewrite !EF by lia. reflexivity. }
  unfold dwt. rewrite map_length, seq_length. cbn [scols srows zmat].
  rewrite guard_true by lia. cbn [bind]. destruct (Nat.eqb_spec n 2); [lia|]. rewrite Nat.eqb_refl.
  rewrite (spmv_ok (zmat n lo hi) y n) by (auto; apply zmat_swf; lia). cbn [bind].
  unfold zmat; cbn [srow]. rewrite !map_app, !map_map.
  pose proof (Nat.div_mod n 2 ltac:(lia)) as Hdm.
  unfold subvec. rewrite !app_length, !map_length, !seq_length, repeat_length.
  replace (0 + n / 2 <=? n / 2 + (n / 2 + (n - (n / 2 + n / 2))))%nat with true by lia. cbn [check bind skipn].
  replace (n / 2 + n / 2 <=? n / 2 + (n / 2 + (n - (n / 2 + n / 2))))%nat with true by lia. cbn [check bind].
  assert (E2 : forall f, length f = (2 * t)%nat ->
     map (fun i => rowdot (zrow n f i) y) (seq 0 (n / 2)) = map (edge_filter f x) (seq 0 (n / 2))).
  { intros f Hf. apply map_ext_in. intros i Hi. apply in_seq in Hi. apply EF; auto; lia. }
  rewrite !E2 by auto.
  f_equal. f_equal.
  - rewrite firstn_app, map_length, seq_length, Nat.sub_diag. cbn [firstn].
    rewrite app_nil_r. apply firstn_all2. rewrite map_length, seq_length; lia.
  - rewrite skipn_app, map_length, seq_length, Nat.sub_diag. cbn [skipn].
    rewrite (skipn_all2 (map (edge_filter lo x) _)) by (rewrite map_length, seq_length; lia). cbn [app].
    rewrite firstn_app, map_length, seq_length, Nat.sub_diag. cbn [firstn].
    rewrite app_nil_r. apply firstn_all2. rewrite map_length, seq_length; lia.
Qed.

Lemma zero_derivative (x : list R) t :
  (1 <= t <= 10)%Z -> (2 * Z.to_nat t <= length x)%nat -> (Z.of_nat (length x) <= 2 ^ 31 - 10)%Z ->
  exists D lo_d hi_d lo hi, daubechies_mat_pad (length x) (t * 2) ZeroDerivative = Ok D /\
    filters t = Ok (lo_d, hi_d, lo, hi) /\
    dwt x D = Ok (map (edge_filter lo x) (seq 0 (length x / 2)), map (edge_filter hi x) (seq 0 (length x / 2))).
Proof.
  intros Ht Hn Hb. exists (zmat (length x) (lo_r t) (hi_r t)), (rev (lo_r t)), (rev (hi_r t)), (lo_r t), (hi_r t).
  split; [apply zero_der_ok; auto|]. split; [apply filters_ok; auto|].
  apply (dwt_zmat _ _ (Z.to_nat t)); auto; try lia.
  - apply lo_r_length; auto.
  - rewrite hi_r_length. apply lo_r_length; auto.
Qed.

(** a constant signal *)
Definition const_ok (t : Z) : bool :=
  Qle_bool (Qabs (qsum (2 * Z.to_nat t) (fun k => nth k (hiQ t) 0%Q))) (1 # 40000000000) &&
  Qle_bool (Qabs (qsum (2 * Z.to_nat t) (fun k => nth k (loQ t) 0%Q) - 1)) (1 # 40000000000).
Lemma consts : forallb const_ok [1; 2; 3; 4; 5; 6; 7; 8; 9; 10]%Z = true.
Proof. vm_compute. reflexivity. Qed.

Lemma sqrt2_lt : 0 <= sqrt 2 <= 3 / 2.
Proof. split; [apply sqrt_pos|]. rewrite <- (sqrt_Rsqr (3 / 2)) by lra. apply sqrt_le_1_alt. unfold Rsqr. lra. Qed.

Lemma edge_const f c n i : (0 < n)%nat -> edge_filter f (repeat c n) i = rsum (length f) (fun k => nth k f 0) * c.
Proof.
  intros Hn. rewrite edge_filter_rsum, <- rsum_scal_r. apply rsum_ext. intros k Hk. f_equal.
  rewrite (nth_indep _ 0 c) by (rewrite repeat_length; unfold clampz; lia). apply nth_repeat.
Qed.

Lemma constant c n t i low high lo hi lo_d hi_d :
  (1 <= t <= 10)%Z -> (2 * Z.to_nat t <= n)%nat -> filters t = Ok (lo_d, hi_d, lo, hi) ->
  low = edge_filter lo (repeat c n) i -> high = edge_filter hi (repeat c n) i ->
  Rabs (low - sqrt 2 * c) <= / 10 ^ 10 * Rabs c /\ Rabs high <= / 10 ^ 10 * Rabs c.
Proof.
  intros Ht Hn HF -> ->. rewrite filters_ok in HF by auto. inversion HF; subst; clear HF.
  rewrite !edge_const by lia.
  assert (HC : const_ok t = true).
  { revert t Ht Hn. refine (Z10_cases _ _). intros t Hin Hn.
    pose proof consts as D. rewrite forallb_forall in D. apply (D t Hin). }
  unfold const_ok in HC. apply andb_true_iff in HC as [H1 H2].
  apply Qle_bool_iff, Qle_Rle in H1. apply Qle_bool_iff, Qle_Rle in H2.
  rewrite Q2R_abs in H1, H2. rewrite Q2R_minus in H2. rewrite qsum_rsum in H1, H2.
  rewrite hi_r_length, lo_r_length by auto.
  assert (EL : rsum (2 * Z.to_nat t) (fun k => nth k (lo_r t) 0) = sqrt 2 * rsum (2 * Z.to_nat t) (fun i => Q2R (nth i (loQ t) 0%Q))).
  { rewrite <- rsum_scal. apply rsum_ext. intros k _. rewrite lo_up, nth_up. reflexivity. }
  assert (EH : rsum (2 * Z.to_nat t) (fun k => nth k (hi_r t) 0) = sqrt 2 * rsum (2 * Z.to_nat t) (fun i => Q2R (nth i (hiQ t) 0%Q))).
  { rewrite <- rsum_scal. apply rsum_ext. intros k _. rewrite hi_up, nth_up. reflexivity. }
  rewrite EL, EH. clear EL EH.
  set (a := rsum (2 * Z.to_nat t) (fun i => Q2R (nth i (loQ t) 0%Q))) in *.
  set (b := rsum (2 * Z.to_nat t) (fun i => Q2R (nth i (hiQ t) 0%Q))) in *. clearbody a b.
  assert (E1 : Q2R (1 # 40000000000) = / 40000000000) by (unfold Q2R; simpl; lra).
  assert (E2 : Q2R 1 = 1) by (unfold Q2R; simpl; lra).
  rewrite E1 in H1, H2. rewrite E2 in H2. destruct sqrt2_lt as [S1 S2].
  replace (sqrt 2 * a * c - sqrt 2 * c) with (sqrt 2 * (a - 1) * c) by ring.
  rewrite !Rabs_mult, (Rabs_pos_eq (sqrt 2)) by auto. pose proof (Rabs_pos c).
  split; (apply Rmult_le_compat_r; [auto|]).
  - apply Rle_trans with (3 / 2 * / 40000000000); [|lra]. apply Rmult_le_compat; auto; apply Rabs_pos.
  - apply Rle_trans with (3 / 2 * / 40000000000); [|lra]. apply Rmult_le_compat; auto; apply Rabs_pos.
Qed.

Lemma constant_dwt c n t D low high :
  (1 <= t <= 10)%Z -> (2 * Z.to_nat t <= n)%nat -> (Z.of_nat n <= 2 ^ 31 - 10)%Z ->
  daubechies_mat_pad n (t * 2) ZeroDerivative = Ok D -> dwt (repeat c n) D = Ok (low, high) ->
  length low = (n / 2)%nat /\ length high = (n / 2)%nat /\
  Forall (fun v => Rabs (v - sqrt 2 * c) <= / 10 ^ 10 * Rabs c) low /\
  Forall (fun v => Rabs v <= / 10 ^ 10 * Rabs c) high.
Proof.
  intros Ht Hn Hb HD HX. destruct (zero_derivative (repeat c n) t) as (D' & lo_d & hi_d & lo & hi & E1 & E2 & E3);
    rewrite ?repeat_length in *; auto.
  rewrite HD in E1. inversion E1; subst D'. rewrite HX in E3. inversion E3; subst low high.
  rewrite !map_length, !seq_length. split; auto. split; auto.
  split; apply Forall_forall; intros v Hv; apply in_map_iff in Hv as (i & <- & _);
    eapply (constant c n t i (edge_filter lo (repeat c n) i) (edge_filter hi (repeat c n) i)); eauto.
Qed.

(** the transposed matrix does not undo the transform *)
Lemma zmat_4 (a b c d e f g h : R) : exists D low high y,
  zmat 4 [a; b; c; d] [e; f; g; h] = D /\ dwt [1; 0; 0; 0] D = Ok (low, high) /\
  idwt low high (stranspose D) = Ok y /\ nth 0 y 0 = (a + b) * (a + b) + (e + f) * (e + f).
Proof.
  exists (SMat 4 4 [[(0%nat, 0 + a + b); (1%nat, c); (2%nat, d)]; [(1%nat, a); (2%nat, b); (3%nat, 0 + d + c)];
                    [(0%nat, 0 + e + f); (1%nat, g); (2%nat, h)]; [(1%nat, e); (2%nat, f); (3%nat, 0 + h + g)]]).
  eexists _, _, _. split; [reflexivity|]. split; [reflexivity|]. split; [reflexivity|].
  cbn. lra.
Qed.
Lemma not_inverse : exists D low high y,
  daubechies_mat_pad 4 4 ZeroDerivative = Ok D /\ dwt [1; 0; 0; 0] D = Ok (low, high) /\
  idwt low high (stranspose D) = Ok y /\ 18 / 10 <= nth 0 y 0.
Proof.
  destruct (zmat_4 (up2 (34150635094622 # 100000000000000)) (up2 (59150635094587 # 100000000000000))
     (up2 (15849364905378 # 100000000000000)) (up2 (-9150635094587 # 100000000000000))
     (up2 (-9150635094587 # 100000000000000)) (up2 (-15849364905378 # 100000000000000))
     (up2 (59150635094587 # 100000000000000)) (up2 (-34150635094622 # 100000000000000))) as (D & low & high & y & E & H1 & H2 & H3).
  exists D, low, high, y. split; [|split; [auto|split; [auto|]]].
  - change 4%Z with (2 * 2)%Z. rewrite (zero_der_ok 4 2) by (cbn; lia). rewrite lo_up, hi_up. rewrite <- E. reflexivity.
  - rewrite H3. rewrite !Rmult_plus_distr_l, !Rmult_plus_distr_r, !up2_mul. unfold Q2R. simpl. lra.
Qed.


End RR.

(** Sizes whose indexes do not fit into an int *)
Lemma int_limit n order D : (2 ^ 31 + 2 <= Z.of_nat n)%Z ->
  @daubechies_mat_pad R exactR n order ZeroDerivative <> Ok D.
Proof.
  intros Hn H. unfold daubechies_mat_pad in H.
  destruct (guard (Z.even order)); [cbn [bind] in H|discriminate|discriminate].
  destruct (guard (order <=? Z.of_nat n)%Z); [cbn [bind] in H|discriminate|discriminate].
  destruct (dbwavf (order / 2)) as [w| |]; [cbn [bind] in H|discriminate|discriminate].
  destruct (orthfilt w) as [[[lo_d hi_d] lo_r] hi_r].
  destruct (tabulateM (n / 2) (fun i => zero_der_row n (rev lo_d) i)) as [rl| |] eqn:E; [|discriminate|discriminate].
  apply tabulateM_inv in E as (HL & E).
  pose (i := Z.to_nat (2 ^ 30)).
  assert (Ei : Z.of_nat i = (2 ^ 30)%Z) by (unfold i; rewrite Z2Nat.id; lia).
  assert (Hi : i < n / 2).
  { apply Nat2Z.inj_lt. rewrite Nat2Z.inj_div, Ei. apply Z.lt_le_trans with ((2 ^ 31 + 2) / 2)%Z; [reflexivity|].
    apply Z.div_le_mono; [reflexivity|exact Hn]. }
  clearbody i.
  assert (U : zero_der_row n (rev lo_d) i = UB).
  { unfold zero_der_row. rewrite Ei. reflexivity. }
  destruct (nth_error rl i) eqn:G; [|apply nth_error_None in G; lia].
  rewrite (E _ _ G) in U. discriminate.
Qed.
