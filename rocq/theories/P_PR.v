(** * P_PR: analysis followed by synthesis over the reals: the identity up to
    the defect of the printed coefficients. *)
Require Import List Bool Arith ZArith QArith Qabs Qreals Lia Reals Lra.
Require Import ZifyBool.
Require Import Verif.M_Base Verif.M_Wavelet Verif.M_Real Verif.P_Base Verif.P_Wavelet Verif.P_Sum Verif.P_Lin.
Import ListNotations.
Open Scope R_scope.

(** ** rational arithmetic, the factor sqrt 2 left out *)
Definition exactQ : Arith Q := {|
  a0 := 0%Q; aadd := fun x y => Qred (x + y); amul := fun x y => Qred (x * y); aopp := Qopp;
  alit := fun q => q; asqrt2 := fun q => q; ascale := fun _ _ q => q |}.
Definition loQ (t : Z) : list Q := @lo_r Q exactQ t.
Definition hiQ (t : Z) : list Q := @hi_r Q exactQ t.

Definition up2 (q : Q) : R := sqrt 2 * Q2R q.
Lemma up2_0 : up2 0 = 0. Proof. unfold up2. rewrite RMicromega.Q2R_0. ring. Qed.
Lemma up2_opp q : up2 (Qopp q) = - up2 q. Proof. unfold up2. rewrite Q2R_opp. ring. Qed.
Lemma up2_mul a b : up2 a * up2 b = 2 * (Q2R a * Q2R b).
Proof.
  unfold up2. replace (sqrt 2 * Q2R a * (sqrt 2 * Q2R b)) with (sqrt 2 * sqrt 2 * (Q2R a * Q2R b)) by ring.
  rewrite sqrt_sqrt by lra. reflexivity.
Qed.

Lemma lo_up t : @lo_r R exactR t = map up2 (loQ t).
Proof. unfold loQ, lo_r. rewrite !map_map. apply map_ext. intros. reflexivity. Qed.
Lemma negate_up f i l : @negate_from R exactR f i (map up2 l) = map up2 (@negate_from Q exactQ f i l).
Proof.
  revert i; induction l as [|x l IH]; intros i; [reflexivity|].
  cbn [map negate_from]. rewrite IH. f_equal.
  destruct ((f <=? i)%nat && Nat.even (i - f)); [|reflexivity]. cbn [aopp exactR exactQ]. rewrite up2_opp. reflexivity.
Qed.
Lemma hi_up t : @hi_r R exactR t = map up2 (hiQ t).
Proof.
  unfold hiQ, hi_r, qmf. rewrite lo_up. rewrite map_length, <- map_rev. apply negate_up.
Qed.
Lemma nth_up l k : nth k (map up2 l) 0 = up2 (nth k l 0%Q).
Proof. rewrite <- up2_0 at 1. rewrite map_nth. reflexivity. Qed.

Definition qsum (n : nat) (f : nat -> Q) : Q := fold_left (fun a i => Qred (a + f i)) (seq 0 n) 0%Q.
Lemma Q2R_red q : Q2R (Qred q) = Q2R q.
Proof. apply Qeq_eqR, Qred_correct. Qed.
Lemma qsum_rsum n f : Q2R (qsum n f) = rsum n (fun i => Q2R (f i)).
Proof.
  unfold qsum. induction n; [simpl; apply RMicromega.Q2R_0|].
  rewrite seq_S, fold_left_app. cbn [fold_left rsum]. rewrite Q2R_red, Q2R_plus, IHn. reflexivity.
Qed.
Lemma Q2R_abs q : Q2R (Qabs q) = Rabs (Q2R q).
Proof.
  apply Qabs_case; intros H.
  - rewrite Rabs_pos_eq; auto. apply Qle_Rle in H. rewrite RMicromega.Q2R_0 in H. auto.
  - rewrite Q2R_opp, Rabs_left1; auto. apply Qle_Rle in H. rewrite RMicromega.Q2R_0 in H. auto.
Qed.

(** coefficient of x((c + e - 2t) mod n) in the result at c, parity p *)
Definition cQ (lo hi : list Q) (t p e : nat) : Q :=
  qsum t (fun b =>
    let s := (2 * t - 2 * b - p)%nat in
    if (s <=? e)%nat && (e <? s + 2 * t)%nat then
      Qred (2 * (nth (2 * b + p) lo 0 * nth (e - s) lo 0 + nth (2 * b + p) hi 0 * nth (e - s) hi 0))%Q
    else 0%Q).
Definition defectQ (lo hi : list Q) (t p : nat) : Q :=
  qsum (4 * t) (fun e => Qabs (cQ lo hi t p e - (if Nat.eqb e (2 * t) then 1 else 0))%Q).

Lemma rsum_shift L s m F : (s + L <= m)%nat ->
  rsum m (fun e => if (s <=? e)%nat && (e <? s + L)%nat then F e else 0) =
  rsum L (fun k => F (s + k)%nat).
Proof.
  intros H. replace m with (s + (L + (m - s - L)))%nat by lia. rewrite !rsum_split.
  rewrite rsum_zero by (intros i Hi; destruct (Nat.leb_spec s i); [lia|reflexivity]).
  rewrite (rsum_zero (m - s - L)) by (intros i Hi; destruct (Nat.ltb_spec (s + (L + i)) (s + L)); [lia|rewrite andb_false_r; reflexivity]).
  rewrite Rplus_0_l, Rplus_0_r. apply rsum_ext. intros k Hk.
  destruct (Nat.leb_spec s (s + k)); [|lia]. destruct (Nat.ltb_spec (s + k) (s + L)); [|lia]. reflexivity.
Qed.

Definition tapidx (n t c e : nat) : nat := ((c + n + e - 2 * t) mod n)%nat.

Lemma AM_A lo hi N x i : (i < N)%nat ->
  mv (2 * N) (AM lo hi (2 * N)) x i = rsum (length lo) (fun k => nth k lo 0 * x ((2 * i + k) mod (2 * N))%nat) /\
  mv (2 * N) (AM lo hi (2 * N)) x (N + i) = rsum (length hi) (fun k => nth k hi 0 * x ((2 * i + k) mod (2 * N))%nat).
Proof.
  intros Hi. assert (E2 : (2 * N / 2 = N)%nat) by (rewrite Nat.mul_comm, Nat.div_mul; lia).
  rewrite <- !ent_sum by lia. unfold mv, AM. rewrite E2. split; apply rsum_ext; intros j Hj.
  - destruct (Nat.ltb_spec i N); [reflexivity|lia].
  - destruct (Nat.ltb_spec (N + i) N); [lia|]. do 2 f_equal; lia.
Qed.

Lemma AM_TA lo hi t N q p x : length lo = (2 * t)%nat -> length hi = (2 * t)%nat ->
  (0 < t <= N)%nat -> (q < N)%nat -> (p < 2)%nat ->
  let M := AM (map up2 lo) (map up2 hi) (2 * N) in
  mvT (2 * N) M (mv (2 * N) M x) (2 * q + p) =
  rsum (4 * t) (fun e => Q2R (cQ lo hi t p e) * x (tapidx (2 * N) t (2 * q + p) e)).
Proof.
  intros H1 H2 Ht Hq Hp M. unfold M. rewrite (AM_T _ _ t) by (rewrite ?map_length; auto; lia).
  rewrite <- rsum_plus.
  transitivity (rsum t (fun b => rsum (2 * t) (fun k =>
     (up2 (nth (2 * b + p) lo 0%Q) * up2 (nth k lo 0%Q) + up2 (nth (2 * b + p) hi 0%Q) * up2 (nth k hi 0%Q))
     * x ((2 * (q + N - b) + k) mod (2 * N))%nat))).
  { apply rsum_ext. intros b Hb.
    assert (Hm : ((q + N - b) mod N < N)%nat) by (apply Nat.mod_upper_bound; lia).
    destruct (AM_A (map up2 lo) (map up2 hi) N x _ Hm) as [E1 E2]. rewrite E1, E2. clear E1 E2.
    rewrite !map_length, H1, H2. rewrite <- !rsum_scal, <- rsum_plus. apply rsum_ext. intros k Hk.
    rewrite !nth_up.
    replace ((2 * ((q + N - b) mod N) + k) mod (2 * N))%nat with ((2 * (q + N - b) + k) mod (2 * N))%nat.
    - ring.
    - rewrite <- (Nat.mul_mod_distr_l (q + N - b) N 2) by lia. rewrite Nat.add_mod_idemp_l by lia. reflexivity. }
  transitivity (rsum t (fun b => rsum (4 * t) (fun e =>
      if (2 * t - 2 * b - p <=? e)%nat && (e <? 2 * t - 2 * b - p + 2 * t)%nat then
        2 * (Q2R (nth (2 * b + p) lo 0%Q) * Q2R (nth (e - (2 * t - 2 * b - p)) lo 0%Q) +
             Q2R (nth (2 * b + p) hi 0%Q) * Q2R (nth (e - (2 * t - 2 * b - p)) hi 0%Q)) * x (tapidx (2 * N) t (2 * q + p) e)
      else 0))).
  { apply rsum_ext. intros b Hb. rewrite rsum_shift by lia. apply rsum_ext. intros k Hk.
    rewrite !up2_mul. replace (2 * t - 2 * b - p + k - (2 * t - 2 * b - p))%nat with k by lia.
    unfold tapidx. replace (2 * q + p + 2 * N + (2 * t - 2 * b - p + k) - 2 * t)%nat with (2 * (q + N - b) + k)%nat by lia.
    ring. }
  rewrite rsum_swap. apply rsum_ext. intros e He. unfold cQ. rewrite qsum_rsum.
  rewrite <- rsum_scal_r. apply rsum_ext. intros b Hb. cbv zeta.
  destruct ((2 * t - 2 * b - p <=? e)%nat && (e <? 2 * t - 2 * b - p + 2 * t)%nat).
  - rewrite Q2R_red, Q2R_mult, Q2R_plus, !Q2R_mult. replace (Q2R 2) with 2 by (unfold Q2R; simpl; lra). ring.
  - rewrite RMicromega.Q2R_0. ring.
Qed.

Lemma tapidx_center n t c : (2 * t <= n)%nat -> (c < n)%nat -> tapidx n t c (2 * t) = c.
Proof.
  intros. unfold tapidx. replace (c + n + 2 * t - 2 * t)%nat with (c + 1 * n)%nat by lia.
  rewrite Nat.mod_add by lia. apply Nat.mod_small; auto.
Qed.

(** M^T M is the identity up to eps in the sup norm *)
Definition near_id (n : nat) (M : nat -> nat -> R) (eps : R) : Prop :=
  forall x B, (forall j, (j < n)%nat -> Rabs (x j) <= B) ->
  forall c, (c < n)%nat -> Rabs (mvT n M (mv n M x) c - x c) <= eps * B.

Lemma AM_near_id lo hi t N eps : length lo = (2 * t)%nat -> length hi = (2 * t)%nat -> (0 < t <= N)%nat ->
  Qle_bool (defectQ lo hi t 0) eps && Qle_bool (defectQ lo hi t 1) eps = true ->
  near_id (2 * N) (AM (map up2 lo) (map up2 hi) (2 * N)) (Q2R eps).
Proof.
  intros H1 H2 Ht HD x B HB c Hc.
  set (q := (c / 2)%nat). set (p := (c mod 2)%nat).
  assert (Ec : c = (2 * q + p)%nat) by (unfold q, p; apply Nat.div_mod; lia).
  assert (Hp : (p < 2)%nat) by (apply Nat.mod_upper_bound; lia).
  assert (Hq : (q < N)%nat) by lia.
  assert (HE : Q2R (defectQ lo hi t p) <= Q2R eps).
  { apply andb_true_iff in HD as [D0 D1]. apply Qle_bool_iff in D0, D1. apply Qle_Rle in D0, D1.
    clearbody p. destruct p as [|[|p]]; auto; lia. }
  assert (HB0 : 0 <= B). { eapply Rle_trans; [apply Rabs_pos|apply (HB c Hc)]. }
  rewrite Ec. rewrite (AM_TA lo hi t N q p x) by auto. rewrite <- Ec.
  assert (E : x c = rsum (4 * t) (fun e => (if Nat.eqb e (2 * t) then 1 else 0) * x (tapidx (2 * N) t c e))).
  { rewrite (rsum_single (4 * t) _ (2 * t)%nat).
    - rewrite Nat.eqb_refl, tapidx_center by lia. ring.
    - lia.
    - intros i _ Hi. destruct (Nat.eqb_spec i (2 * t)); [lia|ring]. }
  rewrite E, <- rsum_minus. eapply Rle_trans; [apply rsum_abs|].
  eapply Rle_trans; [|apply Rmult_le_compat_r; [exact HB0|exact HE]].
  unfold defectQ. rewrite qsum_rsum, <- rsum_scal_r. apply rsum_le. intros e He.
  rewrite Q2R_abs, Q2R_minus.
  replace (Q2R (if Nat.eqb e (2 * t) then 1 else 0)) with (if Nat.eqb e (2 * t) then 1 else 0)
    by (destruct (Nat.eqb e (2 * t)); [rewrite RMicromega.Q2R_1|rewrite RMicromega.Q2R_0]; reflexivity).
  rewrite <- Rmult_minus_distr_r, Rabs_mult. apply Rmult_le_compat_l; [apply Rabs_pos|].
  apply HB. unfold tapidx. apply Nat.mod_upper_bound. lia.
Qed.
