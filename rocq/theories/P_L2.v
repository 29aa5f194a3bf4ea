(** * P_L2: Euclidean norms of vectors and images, nearly orthogonal matrices. *)
Require Import List Bool Arith ZArith Lia Reals Lra.
Require Import ZifyBool.
Require Import Verif.P_Sum Verif.P_Lin Verif.P_PR.
Open Scope R_scope.

Definition sq (x : R) : R := x * x.
Lemma sq_pos x : 0 <= sq x. Proof. unfold sq. apply Rle_0_sqr. Qed.
Lemma sq_abs x : sq (Rabs x) = sq x.
Proof. unfold sq. rewrite <- Rabs_mult. apply Rabs_pos_eq. apply Rle_0_sqr. Qed.

(** weighted Cauchy-Schwarz: (sum w y)^2 <= (sum |w|) (sum |w| y^2) *)
Lemma cs_weighted n w y : sq (rsum n (fun i => w i * y i)) <=
  rsum n (fun i => Rabs (w i)) * rsum n (fun i => Rabs (w i) * sq (y i)).
Proof.
  set (W := rsum n (fun i => Rabs (w i))). set (Y := rsum n (fun i => Rabs (w i) * sq (y i))).
  set (P := rsum n (fun i => w i * y i)).
  assert (HW : 0 <= W) by (apply rsum_nonneg; intros; apply Rabs_pos).
  (* |w|(y - s lambda)^2 >= 0 with sign s *)
  assert (G : forall l, 0 <= Y - 2 * l * P + l * l * W).
  { intros l. unfold Y, P, W. rewrite <- !rsum_scal, <- rsum_minus, <- rsum_plus. apply rsum_nonneg.
    intros i _. unfold sq. destruct (Rle_dec 0 (w i)).
    - rewrite Rabs_pos_eq by auto.
      replace (w i * (y i * y i) - 2 * l * (w i * y i) + l * l * w i) with (w i * ((y i - l) * (y i - l))) by ring.
      apply Rmult_le_pos; auto. apply Rle_0_sqr.
    - rewrite Rabs_left by lra.
      replace (- w i * (y i * y i) - 2 * l * (w i * y i) + l * l * - w i) with (- w i * ((y i + l) * (y i + l))) by ring.
      apply Rmult_le_pos; [lra|]. apply Rle_0_sqr. }
  destruct (Req_dec W 0) as [E|E].
  - assert (P = 0).
    { unfold P. apply rsum_zero. intros i Hi.
      assert (Rabs (w i) = 0).
      { apply (rsum_zero_inv n (fun i => Rabs (w i))); auto. intros; apply Rabs_pos. }
      destruct (Req_dec (w i) 0) as [->|N]; [ring|]. apply Rabs_no_R0 in N. lra. }
    rewrite H, E. unfold sq. lra.
  - assert (0 < W) by lra. specialize (G (P / W)).
    assert (0 <= W * (Y - 2 * (P / W) * P + P / W * (P / W) * W)) by (apply Rmult_le_pos; lra).
    replace (W * (Y - 2 * (P / W) * P + P / W * (P / W) * W)) with (W * Y - P * P) in H0 by (field; lra).
    unfold sq. lra.
Qed.

Lemma cauchy_schwarz n x y : sq (rsum n (fun i => x i * y i)) <= rsum n (fun i => sq (x i)) * rsum n (fun i => sq (y i)).
Proof.
  set (X := rsum n (fun i => sq (x i))). set (Y := rsum n (fun i => sq (y i))).
  set (P := rsum n (fun i => x i * y i)).
  assert (HX : 0 <= X) by (apply rsum_nonneg; intros; apply sq_pos).
  assert (G : forall l, 0 <= Y - 2 * l * P + l * l * X).
  { intros l. unfold X, Y, P. rewrite <- !rsum_scal, <- rsum_minus, <- rsum_plus. apply rsum_nonneg.
    intros i _. unfold sq.
    replace (y i * y i - 2 * l * (x i * y i) + l * l * (x i * x i)) with ((y i - l * x i) * (y i - l * x i)) by ring.
    apply Rle_0_sqr. }
  destruct (Req_dec X 0) as [E|E].
  - assert (P = 0).
    { unfold P. apply rsum_zero. intros i Hi.
      assert (sq (x i) = 0).
      { apply (rsum_zero_inv n (fun i => sq (x i))); auto. intros; apply sq_pos. }
      unfold sq in H. apply Rsqr_0_uniq in H. rewrite H. ring. }
    rewrite H, E. unfold sq. lra.
  - assert (0 < X) by lra. specialize (G (P / X)).
    assert (0 <= X * (Y - 2 * (P / X) * P + P / X * (P / X) * X)) by (apply Rmult_le_pos; lra).
    replace (X * (Y - 2 * (P / X) * P + P / X * (P / X) * X)) with (X * Y - P * P) in H0 by (field; lra).
    unfold sq. lra.
Qed.

(** ** sums over images *)
Definition rsum2 (h w : nat) (f : nat -> nat -> R) : R := rsum h (fun i => rsum w (fun j => f i j)).

Lemma rsum2_flat h w f : (0 < w)%nat -> rsum2 h w f = rsum (h * w) (fun k => f (k / w) (k mod w))%nat.
Proof.
  intros Hw. unfold rsum2. induction h; [reflexivity|].
  cbn [rsum]. replace (S h * w)%nat with (h * w + w)%nat by lia. rewrite rsum_split, <- IHh. f_equal.
  apply rsum_ext. intros j Hj. f_equal.
  - symmetry. rewrite Nat.add_comm, Nat.div_add by lia. rewrite Nat.div_small by auto. lia.
  - symmetry. rewrite Nat.add_comm, Nat.mod_add by lia. apply Nat.mod_small; auto.
Qed.
Lemma rsum2_ext h w f g : (forall i j, (i < h)%nat -> (j < w)%nat -> f i j = g i j) -> rsum2 h w f = rsum2 h w g.
Proof. intros H. apply rsum_ext. intros. apply rsum_ext. auto. Qed.
Lemma rsum2_nonneg h w f : (forall i j, (i < h)%nat -> (j < w)%nat -> 0 <= f i j) -> 0 <= rsum2 h w f.
Proof. intros H. apply rsum_nonneg. intros. apply rsum_nonneg. auto. Qed.
Lemma rsum2_le h w f g : (forall i j, (i < h)%nat -> (j < w)%nat -> f i j <= g i j) -> rsum2 h w f <= rsum2 h w g.
Proof. intros H. apply rsum_le. intros. apply rsum_le. auto. Qed.
Lemma rsum2_plus h w f g : rsum2 h w (fun i j => f i j + g i j) = rsum2 h w f + rsum2 h w g.
Proof. unfold rsum2. rewrite <- rsum_plus. apply rsum_ext. intros. apply rsum_plus. Qed.
Lemma rsum2_scal h w a f : rsum2 h w (fun i j => a * f i j) = a * rsum2 h w f.
Proof. unfold rsum2. rewrite <- rsum_scal. apply rsum_ext. intros. apply rsum_scal. Qed.
Lemma rsum2_swap h w f : rsum2 h w f = rsum2 w h (fun j i => f i j).
Proof. apply rsum_swap. Qed.
Lemma rsum2_w0 h f : rsum2 h 0 f = 0.
Proof. unfold rsum2. apply rsum_zero. reflexivity. Qed.

Definition nrm (h w : nat) (x : nat -> nat -> R) : R := sqrt (rsum2 h w (fun i j => sq (x i j))).
Lemma nrm_pos h w x : 0 <= nrm h w x. Proof. apply sqrt_pos. Qed.
Lemma nrm_ext h w x y : (forall i j, (i < h)%nat -> (j < w)%nat -> x i j = y i j) -> nrm h w x = nrm h w y.
Proof. intros H. unfold nrm. f_equal. apply rsum2_ext. intros. rewrite H; auto. Qed.
Lemma rsum2_sq_pos h w x : 0 <= rsum2 h w (fun i j => sq (x i j)).
Proof. apply rsum2_nonneg. intros; apply sq_pos. Qed.
Lemma nrm_sq h w x : sq (nrm h w x) = rsum2 h w (fun i j => sq (x i j)).
Proof. unfold sq at 1, nrm. apply sqrt_sqrt. apply rsum2_sq_pos. Qed.
Lemma nrm_le_sq h w x c : 0 <= c -> rsum2 h w (fun i j => sq (x i j)) <= sq c -> nrm h w x <= c.
Proof.
  intros Hc H. unfold nrm. rewrite <- (sqrt_square c) by auto. apply sqrt_le_1_alt. exact H.
Qed.
Lemma nrm_zero h w x : (forall i j, (i < h)%nat -> (j < w)%nat -> x i j = 0) -> nrm h w x = 0.
Proof.
  intros H. unfold nrm. replace (rsum2 h w (fun i j => sq (x i j))) with 0; [apply sqrt_0|].
  symmetry. unfold rsum2. apply rsum_zero. intros. apply rsum_zero. intros. rewrite H by auto. unfold sq; ring.
Qed.
Lemma nrm_elem h w x i j : (i < h)%nat -> (j < w)%nat -> Rabs (x i j) <= nrm h w x.
Proof.
  intros Hi Hj. rewrite <- (sqrt_square (Rabs (x i j))) by apply Rabs_pos.
  unfold nrm. apply sqrt_le_1_alt. fold (sq (Rabs (x i j))). rewrite sq_abs.
  eapply Rle_trans; [|apply (rsum_term_le h (fun i => rsum w (fun j => sq (x i j))) i)]; auto.
  - apply (rsum_term_le w (fun j => sq (x i j)) j); auto. intros; apply sq_pos.
  - intros. apply rsum_nonneg. intros; apply sq_pos.
Qed.
Lemma nrm_zero_inv h w x : nrm h w x = 0 -> forall i j, (i < h)%nat -> (j < w)%nat -> x i j = 0.
Proof.
  intros H i j Hi Hj. pose proof (nrm_elem h w x i j Hi Hj). pose proof (Rabs_pos (x i j)).
  destruct (Req_dec (x i j) 0); auto. apply Rabs_no_R0 in H2. lra.
Qed.
Lemma nrm_bound h w x B : 0 <= B -> (forall i j, (i < h)%nat -> (j < w)%nat -> Rabs (x i j) <= B) ->
  nrm h w x <= sqrt (INR (h * w)) * B.
Proof.
  intros HB H. apply nrm_le_sq.
  - apply Rmult_le_pos; auto. apply sqrt_pos.
  - replace (sq (sqrt (INR (h * w)) * B)) with (INR (h * w) * (B * B)).
    + rewrite mult_INR. eapply Rle_trans.
      * apply (rsum2_le h w _ (fun _ _ => B * B)). intros i j Hi Hj.
        rewrite <- sq_abs. unfold sq. apply Rmult_le_compat; try apply Rabs_pos; auto.
      * unfold rsum2. rewrite (rsum_ext h _ (fun _ => INR w * (B * B))) by (intros; apply rsum_const).
        rewrite rsum_const. lra.
    + unfold sq. replace (sqrt (INR (h * w)) * B * (sqrt (INR (h * w)) * B)) with
        (sqrt (INR (h * w)) * sqrt (INR (h * w)) * (B * B)) by ring.
      rewrite sqrt_sqrt; [reflexivity|apply pos_INR].
Qed.
Lemma cs2 h w x y : rsum2 h w (fun i j => x i j * y i j) <= nrm h w x * nrm h w y.
Proof.
  destruct w as [|w].
  { rewrite rsum2_w0. apply Rmult_le_pos; apply nrm_pos. }
  apply Rle_trans with (Rabs (rsum2 h (S w) (fun i j => x i j * y i j))); [apply Rle_abs|].
  unfold nrm. rewrite <- sqrt_mult by apply rsum2_sq_pos.
  rewrite <- sqrt_Rsqr_abs. apply sqrt_le_1_alt.
  rewrite !rsum2_flat by lia. apply cauchy_schwarz.
Qed.
Lemma nrm_triang h w x y : nrm h w (fun i j => x i j + y i j) <= nrm h w x + nrm h w y.
Proof.
  apply nrm_le_sq.
  - pose proof (nrm_pos h w x); pose proof (nrm_pos h w y); lra.
  - unfold sq at 2. pose proof (cs2 h w x y) as H. pose proof (nrm_sq h w x) as Hx. pose proof (nrm_sq h w y) as Hy.
    rewrite (rsum2_ext h w _ (fun i j => sq (x i j) + (2 * (x i j * y i j) + sq (y i j)))) by (intros; unfold sq; ring).
    rewrite !rsum2_plus, rsum2_scal, <- Hx, <- Hy. unfold sq. lra.
Qed.
Lemma nrm_scal h w a x : nrm h w (fun i j => a * x i j) = Rabs a * nrm h w x.
Proof.
  unfold nrm. rewrite (rsum2_ext h w _ (fun i j => sq a * sq (x i j))) by (intros; unfold sq; ring).
  rewrite rsum2_scal, sqrt_mult by (apply sq_pos || apply rsum2_sq_pos).
  f_equal. unfold sq. apply sqrt_Rsqr_abs.
Qed.

(** ** nearly orthogonal matrices in the Euclidean norm *)
Definition gram (n : nat) (M : nat -> nat -> R) (c d : nat) : R := rsum n (fun r => M r c * M r d) - idm c d.
Lemma gram_sym n M c d : gram n M c d = gram n M d c.
Proof.
  unfold gram, idm. rewrite Nat.eqb_sym. f_equal. apply rsum_ext. intros; ring.
Qed.
Lemma gram_spec n M x c : (c < n)%nat -> mvT n M (mv n M x) c - x c = rsum n (fun d => gram n M c d * x d).
Proof.
  intros Hc. unfold mvT, mv, gram.
  rewrite (rsum_ext n (fun r => M r c * _) (fun r => rsum n (fun d => M r c * M r d * x d))) by
    (intros; rewrite <- rsum_scal; apply rsum_ext; intros; ring).
  rewrite rsum_swap.
  rewrite (rsum_ext n (fun d => (_ - _) * x d) (fun d => rsum n (fun r => M r c * M r d * x d) - idm c d * x d)) by
    (intros; rewrite Rmult_minus_distr_r, <- rsum_scal_r; reflexivity).
  rewrite rsum_minus. f_equal.
  rewrite (rsum_single n _ c); auto.
  - unfold idm. rewrite Nat.eqb_refl. ring.
  - intros d _ Hd. unfold idm. destruct (Nat.eqb_spec c d); [congruence|ring].
Qed.
Lemma gram_rows n M eps c : near_id n M eps -> (c < n)%nat -> rsum n (fun d => Rabs (gram n M c d)) <= eps.
Proof.
  intros H Hc.
  set (s := fun d => if Rle_dec 0 (gram n M c d) then 1 else -1).
  assert (Hs : forall j, (j < n)%nat -> Rabs (s j) <= 1).
  { intros. unfold s. destruct (Rle_dec 0 (gram n M c j)); [rewrite Rabs_R1|rewrite Rabs_left]; lra. }
  specialize (H s 1 Hs c Hc). rewrite Rmult_1_r, gram_spec in H by auto.
  eapply Rle_trans; [|exact H]. eapply Rle_trans; [|apply Rle_abs].
  apply Req_le, rsum_ext. intros d _. unfold s. destruct (Rle_dec 0 (gram n M c d)).
  - rewrite Rabs_pos_eq by auto. ring.
  - rewrite Rabs_left by lra. ring.
Qed.

Definition nrm1 (n : nat) (x : nat -> R) : R := rsum n (fun i => sq (x i)).

Lemma near_id_eps n M eps : (0 < n)%nat -> near_id n M eps -> 0 <= eps.
Proof.
  intros Hn H. eapply Rle_trans; [|apply (gram_rows n M eps 0 H Hn)]. apply rsum_nonneg. intros; apply Rabs_pos.
Qed.

(** |M^T M x - x|^2 <= eps^2 |x|^2 *)
Lemma near_l2 n M eps x : near_id n M eps -> 0 <= eps ->
  nrm1 n (fun c => mvT n M (mv n M x) c - x c) <= sq eps * nrm1 n x.
Proof.
  intros H He. unfold nrm1.
  rewrite (rsum_ext n _ (fun c => sq (rsum n (fun d => gram n M c d * x d)))) by (intros; rewrite gram_spec; auto).
  eapply Rle_trans.
  { apply (rsum_le n _ (fun c => eps * rsum n (fun d => Rabs (gram n M c d) * sq (x d)))). intros c Hc.
    eapply Rle_trans; [apply cs_weighted|]. apply Rmult_le_compat_r.
    - apply rsum_nonneg. intros. apply Rmult_le_pos; [apply Rabs_pos|apply sq_pos].
    - apply gram_rows; auto. }
  rewrite rsum_scal, rsum_swap. unfold sq at 2. rewrite Rmult_assoc. apply Rmult_le_compat_l; auto.
  rewrite <- rsum_scal. apply rsum_le. intros d Hd. rewrite rsum_scal_r.
  apply Rmult_le_compat_r; [apply sq_pos|].
  rewrite (rsum_ext n _ (fun c => Rabs (gram n M d c))) by (intros; rewrite gram_sym; reflexivity).
  apply gram_rows; auto.
Qed.

(** |M x|^2 <= (1+eps)|x|^2 *)
Lemma mv_l2 n M eps x : near_id n M eps -> 0 <= eps -> nrm1 n (mv n M x) <= (1 + eps) * nrm1 n x.
Proof.
  intros H He.
  assert (E : nrm1 n (mv n M x) = rsum n (fun c => x c * mvT n M (mv n M x) c)).
  { rewrite <- mv_adjoint. reflexivity. }
  rewrite E.
  rewrite (rsum_ext n _ (fun c => sq (x c) + x c * (mvT n M (mv n M x) c - x c))) by (intros; unfold sq; ring).
  rewrite rsum_plus. fold (nrm1 n x). rewrite Rmult_plus_distr_r, Rmult_1_l. apply Rplus_le_compat_l.
  pose proof (cauchy_schwarz n x (fun c => mvT n M (mv n M x) c - x c)) as CS.
  pose proof (near_l2 n M eps x H He) as N. unfold nrm1 in *.
  clear E.
  set (P := rsum n (fun c => x c * _)) in *. set (X := rsum n (fun i => sq (x i))) in *.
  set (Y := rsum n (fun i => sq _)) in *.
  assert (HX : 0 <= X) by (apply rsum_nonneg; intros; apply sq_pos).
  assert (sq P <= sq (eps * X)).
  { eapply Rle_trans; [exact CS|]. replace (sq (eps * X)) with (X * (sq eps * X)) by (unfold sq; ring).
    apply Rmult_le_compat_l; auto. }
  apply Rsqr_incr_0_var; [exact H0|]. apply Rmult_le_pos; auto.
Qed.

(** |M^T y|^2 <= (1+eps)|y|^2 *)
Lemma mvT_l2 n M eps y : near_id n M eps -> 0 <= eps -> nrm1 n (mvT n M y) <= (1 + eps) * nrm1 n y.
Proof.
  intros H He. set (z := mvT n M y).
  assert (E : nrm1 n z = rsum n (fun r => mv n M z r * y r)) by (rewrite mv_adjoint; reflexivity).
  pose proof (cauchy_schwarz n (mv n M z) y) as CS. rewrite <- E in CS.
  pose proof (mv_l2 n M eps z H He) as N. unfold nrm1 in *.
  set (Z := rsum n (fun i => sq (z i))) in *. set (Y := rsum n (fun i => sq (y i))) in *.
  set (MZ := rsum n (fun i => sq (mv n M z i))) in *.
  assert (HZ : 0 <= Z) by (apply rsum_nonneg; intros; apply sq_pos).
  assert (HY : 0 <= Y) by (apply rsum_nonneg; intros; apply sq_pos).
  destruct (Req_dec Z 0) as [->|]; [apply Rmult_le_pos; lra|].
  apply (Rmult_le_reg_l Z); [lra|]. unfold sq in CS.
  eapply Rle_trans; [exact CS|].
  replace (Z * ((1 + eps) * Y)) with (((1 + eps) * Z) * Y) by ring. apply Rmult_le_compat_r; auto.
Qed.

(** the identity *)
Lemma idm_mv n x c : (c < n)%nat -> mv n idm x c = x c /\ mvT n idm x c = x c.
Proof.
  intros Hc. unfold mv, mvT, idm. split.
  - rewrite (rsum_single n _ c); auto; [rewrite Nat.eqb_refl; ring|].
    intros i _ Hi. destruct (Nat.eqb_spec c i); [congruence|ring].
  - rewrite (rsum_single n _ c); auto; [rewrite Nat.eqb_refl; ring|].
    intros i _ Hi. destruct (Nat.eqb_spec i c); [congruence|ring].
Qed.
Lemma idm_near n : near_id n idm 0.
Proof.
  intros x B HB c Hc. rewrite (proj2 (idm_mv n _ c Hc)), (proj1 (idm_mv n x c Hc)).
  unfold Rminus. rewrite Rplus_opp_r, Rabs_R0. lra.
Qed.
Lemma near_id_le n M e e' : e <= e' -> near_id n M e -> near_id n M e'.
Proof.
  intros Hle H x B HB c Hc. eapply Rle_trans; [apply H; eauto|]. apply Rmult_le_compat_r; auto.
  eapply Rle_trans; [apply Rabs_pos|apply (HB c Hc)].
Qed.
(** exact inverse *)
Lemma near_id_exact n M : near_id n M 0 -> forall x c, (c < n)%nat -> mvT n M (mv n M x) c = x c.
Proof.
  intros H x c Hc. pose proof (near_l2 n M 0 x H (Rle_refl 0)) as N. unfold sq in N.
  replace (0 * 0 * nrm1 n x) with 0 in N by ring.
  assert (E : nrm1 n (fun c => mvT n M (mv n M x) c - x c) = 0).
  { apply Rle_antisym; auto. apply rsum_nonneg. intros; apply sq_pos. }
  apply (rsum_zero_inv n _) with (i := c) in E; auto.
  - unfold sq in E. apply Rsqr_0_uniq in E. lra.
  - intros; apply sq_pos.
Qed.

(** ** separable operators on h x w images *)
Definition An (h w : nat) (H W : nat -> nat -> R) (x : nat -> nat -> R) (i j : nat) : R :=
  mv h H (fun i' => mv w W (x i') j) i.
Definition Sy (h w : nat) (H W : nat -> nat -> R) (y : nat -> nat -> R) (i j : nat) : R :=
  mvT h H (fun i' => mvT w W (y i') j) i.

Lemma An_ext h w H W x y i j : (forall i j, (i < h)%nat -> (j < w)%nat -> x i j = y i j) ->
  An h w H W x i j = An h w H W y i j.
Proof. intros E. apply mv_ext. intros. apply mv_ext. intros. apply E; auto. Qed.
Lemma Sy_ext h w H W x y i j : (forall i j, (i < h)%nat -> (j < w)%nat -> x i j = y i j) ->
  Sy h w H W x i j = Sy h w H W y i j.
Proof. intros E. apply mvT_ext. intros. apply mvT_ext. intros. apply E; auto. Qed.
Lemma An_lin h w H W a b x y i j :
  An h w H W (fun i j => a * x i j + b * y i j) i j = a * An h w H W x i j + b * An h w H W y i j.
Proof. unfold An. rewrite <- mv_lin. apply mv_ext. intros. apply mv_lin. Qed.
Lemma Sy_lin h w H W a b x y i j :
  Sy h w H W (fun i j => a * x i j + b * y i j) i j = a * Sy h w H W x i j + b * Sy h w H W y i j.
Proof. unfold Sy. rewrite <- mvT_lin. apply mvT_ext. intros. apply mvT_lin. Qed.

Lemma nrm_rows h w x y c : 0 <= c -> (forall i, (i < h)%nat -> nrm1 w (y i) <= sq c * nrm1 w (x i)) ->
  nrm h w y <= c * nrm h w x.
Proof.
  intros Hc H. apply nrm_le_sq; [apply Rmult_le_pos; auto; apply nrm_pos|].
  replace (sq (c * nrm h w x)) with (sq c * sq (nrm h w x)) by (unfold sq; ring).
  rewrite nrm_sq, <- rsum2_scal. unfold rsum2. apply rsum_le. intros i Hi. rewrite rsum_scal. apply H; auto.
Qed.
Lemma nrm_cols h w x y c : 0 <= c ->
  (forall j, (j < w)%nat -> nrm1 h (fun i => y i j) <= sq c * nrm1 h (fun i => x i j)) ->
  nrm h w y <= c * nrm h w x.
Proof.
  intros Hc H. unfold nrm. rewrite (rsum2_swap h w (fun i j => sq (y i j))), (rsum2_swap h w (fun i j => sq (x i j))).
  apply (nrm_rows w h (fun j i => x i j) (fun j i => y i j)); auto.
Qed.

Section Sep.
Variables (h w : nat) (H W : nat -> nat -> R) (e f : R).
Hypothesis (NH : near_id h H e) (NW : near_id w W f) (He : 0 <= e) (Hf : 0 <= f).

Lemma one_le a : 0 <= a -> 1 + a <= sq (1 + a).
Proof. intros. unfold sq. nra. Qed.

Lemma An_nrm x : nrm h w (An h w H W x) <= (1 + e) * (1 + f) * nrm h w x.
Proof.
  rewrite Rmult_assoc. eapply Rle_trans.
  - apply (nrm_cols h w (fun i j => mv w W (x i) j) _ (1 + e)); [lra|].
    intros j Hj. unfold An. eapply Rle_trans; [apply (mv_l2 h H e); auto|].
    apply Rmult_le_compat_r; [apply rsum_nonneg; intros; apply sq_pos|apply one_le; auto].
  - apply Rmult_le_compat_l; [lra|]. apply nrm_rows; [lra|].
    intros i Hi. eapply Rle_trans; [apply (mv_l2 w W f); auto|].
    apply Rmult_le_compat_r; [apply rsum_nonneg; intros; apply sq_pos|apply one_le; auto].
Qed.
Lemma Sy_nrm x : nrm h w (Sy h w H W x) <= (1 + e) * (1 + f) * nrm h w x.
Proof.
  rewrite Rmult_assoc. eapply Rle_trans.
  - apply (nrm_cols h w (fun i j => mvT w W (x i) j) _ (1 + e)); [lra|].
    intros j Hj. unfold Sy. eapply Rle_trans; [apply (mvT_l2 h H e); auto|].
    apply Rmult_le_compat_r; [apply rsum_nonneg; intros; apply sq_pos|apply one_le; auto].
  - apply Rmult_le_compat_l; [lra|]. apply nrm_rows; [lra|].
    intros i Hi. eapply Rle_trans; [apply (mvT_l2 w W f); auto|].
    apply Rmult_le_compat_r; [apply rsum_nonneg; intros; apply sq_pos|apply one_le; auto].
Qed.

(** row and column operators commute *)
Lemma SyAn x i j : (i < h)%nat -> (j < w)%nat ->
  Sy h w H W (An h w H W x) i j = mvT h H (mv h H (fun i' => mvT w W (mv w W (x i')) j)) i.
Proof.
  intros Hi Hj. unfold Sy, An. apply mvT_ext. intros i1 Hi1. unfold mvT at 1, mv at 1.
  rewrite (rsum_ext w _ (fun j1 => rsum h (fun i2 => H i1 i2 * (W j1 j * mv w W (x i2) j1)))) by
    (intros; rewrite <- rsum_scal; apply rsum_ext; intros; ring).
  rewrite rsum_swap. unfold mv at 2. apply rsum_ext. intros i2 Hi2. rewrite rsum_scal. reflexivity.
Qed.

Lemma SyAn_near x : nrm h w (fun i j => Sy h w H W (An h w H W x) i j - x i j) <=
  ((1 + e) * (1 + f) - 1) * nrm h w x.
Proof.
  set (z := fun i j => mvT w W (mv w W (x i)) j - x i j).
  assert (Hz : nrm h w z <= f * nrm h w x).
  { apply nrm_rows; auto. intros i Hi. apply near_l2; auto. }
  set (P := fun (y : nat -> nat -> R) i j => mvT h H (mv h H (fun i' => y i' j)) i).
  assert (HP : forall y, nrm h w (fun i j => P y i j - y i j) <= e * nrm h w y).
  { intros y. apply nrm_cols; auto. intros j Hj. apply near_l2; auto. }
  rewrite (nrm_ext h w _ (fun i j => (P z i j - z i j) + (z i j + (P x i j - x i j)))).
  2:{ intros i j Hi Hj. rewrite SyAn by auto. fold (P (fun i j => mvT w W (mv w W (x i)) j) i j).
      assert (E : P (fun i j => mvT w W (mv w W (x i)) j) i j = P z i j + P x i j).
      { unfold P. rewrite <- (Rmult_1_l (mvT h H (mv h H (fun i' => z i' j)) i)), <- (Rmult_1_l (mvT h H (mv h H (fun i' => x i' j)) i)).
        rewrite <- mvT_lin. apply mvT_ext. intros. rewrite <- mv_lin. apply mv_ext. intros. unfold z. ring. }
      rewrite E. ring. }
  pose proof (nrm_pos h w x) as Hx. pose proof (nrm_pos h w z) as Hz0.
  eapply Rle_trans; [apply nrm_triang|].
  eapply Rle_trans; [apply Rplus_le_compat_l, nrm_triang|].
  pose proof (HP z) as H1. pose proof (HP x) as H2.
  assert (e * nrm h w z <= e * (f * nrm h w x)) by (apply Rmult_le_compat_l; auto).
  lra.
Qed.
End Sep.
