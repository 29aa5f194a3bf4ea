(** * P_Metrics *)
Require Import List Bool Arith ZArith QArith Qreals Lia Reals Lra.
Require Import ZifyBool.
Require Import Verif.M_Base Verif.M_Params Verif.M_Padding Verif.M_Buffer Verif.M_Real Verif.M_Metrics.
Require Import Verif.S_Params Verif.S_Buffer Verif.S_Exact Verif.S_Metrics.
Require Import Verif.P_Base Verif.P_Wavelet Verif.P_Buffer Verif.P_Impl Verif.P_Api Verif.P_Api2.
Require Import Verif.P_Sum Verif.P_Lin Verif.P_PR Verif.P_L2 Verif.P_Rec Verif.P_Exact.
Import ListNotations.
Open Scope R_scope.

(** ** sums *)
Definition sd (u : R * R) : R := (fst u - snd u) * (fst u - snd u).
Lemma sum_sq_lsum l l' : sum_sq_diff l l' = lsum (combine l l') sd.
Proof. unfold sum_sq_diff. induction (combine l l'); simpl; auto. rewrite IHl0. reflexivity. Qed.

Lemma combine_app {X Y} (a : list X) (c : list Y) b d : length a = length c ->
  combine (a ++ b) (c ++ d) = combine a c ++ combine b d.
Proof.
  revert c; induction a as [|x a IH]; intros [|y c] H; simpl in *; try discriminate; auto.
  f_equal. apply IH. lia.
Qed.
Lemma sum_sq_app a b c d : length a = length c ->
  sum_sq_diff (a ++ b) (c ++ d) = sum_sq_diff a c + sum_sq_diff b d.
Proof. intros. rewrite !sum_sq_lsum, combine_app, lsum_app; auto. Qed.

Lemma sq_sum_nonneg (l : list R) : 0 <= fold_left (fun s x => s + x * x) l 0.
Proof.
  rewrite (fold_left_lsum l (fun x => x * x)). rewrite Rplus_0_l.
  replace 0 with (lsum l (fun _ => 0)) by (apply lsum_zero; auto). apply lsum_le. intros. apply Rle_0_sqr.
Qed.

Lemma Forall2_len {X Y} (P : X -> Y -> Prop) l l' : Forall2 P l l' -> length l = length l'.
Proof. induction 1; simpl; auto. Qed.

Lemma nth_error_map_some {X Y} (f : X -> Y) l i y : nth_error (map f l) i = Some y ->
  exists x, nth_error l i = Some x /\ y = f x.
Proof. rewrite nth_error_map. destruct (nth_error l i); simpl; intros E; inversion E; eauto. Qed.

Lemma msubtract_ok a b : mwf a -> mwf b -> rows a = rows b -> cols a = cols b ->
  exists d, msubtract b a = Ok d /\ mnorm d ^ 2 = sum_sq_diff (elts b) (elts a).
Proof.
  intros Wa Wb HR HC. unfold msubtract. rewrite check_true by lia. cbn [bind]. eexists. split; [reflexivity|].
  unfold mnorm. rewrite <- Rsqr_pow2, Rsqr_sqrt by apply sq_sum_nonneg. cbn [elts].
  rewrite (fold_left_lsum _ (fun x => x * x)), Rplus_0_l, lsum_map, sum_sq_lsum. reflexivity.
Qed.

Lemma sum_sq_sym l l' : sum_sq_diff l l' = sum_sq_diff l' l.
Proof.
  unfold sum_sq_diff. revert l'; induction l as [|x l IH]; intros [|y l']; simpl; auto. rewrite IH. ring.
Qed.

(** loop that adds up values *)
Lemma loop_add {X} (l : list X) (f : nat -> res R) (v : X -> R) acc :
  (forall i x, nth_error l i = Some x -> f i = Ok (v x)) ->
  loop (length l) 0 (fun i acc => let* y := f i in Ok (acc + y)) acc = Ok (acc + lsum l v).
Proof.
  intros H.
  assert (G : forall start (l : list X) acc, (forall i x, nth_error l i = Some x -> f (start + i)%nat = Ok (v x)) ->
    loop (length l) start (fun i acc => let* y := f i in Ok (acc + y)) acc = Ok (acc + lsum l v)).
  { clear. intros start l; revert start; induction l as [|x l IH]; intros start acc H; cbn [length loop lsum].
    - rewrite Rplus_0_r. reflexivity.
    - rewrite <- (Nat.add_0_r start) at 1. rewrite (H 0%nat x eq_refl). cbn [bind].
      rewrite IH; [f_equal; ring|]. intros i y Hy. replace (S start + i)%nat with (start + S i)%nat by lia. apply H. auto. }
  apply G. auto.
Qed.

Lemma calc_ok b1 b2 : same_sizes b1 b2 ->
  calc_distance (bdec b1) (bdec b2) = Ok (sum_sq_diff (all_values b2) (all_values b1)).
Proof.
  unfold same_sizes, all_values, calc_distance. generalize (bdec b1), (bdec b2). clear.
  intros d1 d2 H.
  assert (G : forall st (pre1 pre2 : ndecomposition R) d1 d2 acc, length pre1 = st -> length pre2 = st ->
    Forall2 (Forall2 (fun m m' => mwf m /\ mwf m' /\ rows m = rows m' /\ cols m = cols m')) d1 d2 ->
    loop (length d1) st (fun ch result =>
    let* a_dec := rd (pre1 ++ d1) ch in
    loop (length a_dec) 0 (fun i result =>
      let* a := rd a_dec i in
      let* b_dec := rd (pre2 ++ d2) ch in
      let* b := rd b_dec i in
      let* d := msubtract b a in
      Ok (result + mnorm d ^ 2)) result) acc
    = Ok (acc + sum_sq_diff (concat (map (fun ch => concat (map (@elts R) ch)) d2)) (concat (map (fun ch => concat (map (@elts R) ch)) d1)))).
  { clear. intros st pre1 pre2 d1; revert st pre1 pre2; induction d1 as [|c1 d1 IH];
      intros st pre1 pre2 d2 acc H1 H2 HF; inversion HF as [|? c2 ? d2' Hc Hd]; subst; cbn [length loop map concat].
    - unfold sum_sq_diff; simpl. rewrite Rplus_0_r. reflexivity.
    - rewrite (rd_some _ _ c1) by (rewrite nth_error_app2, Nat.sub_diag by lia; reflexivity). cbn [bind].
      assert (E2 : rd (pre2 ++ c2 :: d2') (length pre1) = Ok c2).
      { apply rd_some. rewrite <- H2, nth_error_app2, Nat.sub_diag by lia. reflexivity. }
      assert (EI : loop (length c1) 0 (fun i result =>
          let* a := rd c1 i in let* b_dec := rd (pre2 ++ c2 :: d2') (length pre1) in
          let* b := rd b_dec i in let* d := msubtract b a in Ok (result + mnorm d ^ 2)) acc
        = Ok (acc + sum_sq_diff (concat (map (@elts R) c2)) (concat (map (@elts R) c1)))).
      { rewrite E2. cbn [bind].
        rewrite (loop_ext _ _ _ (fun i acc => let* y := (let* a := rd c1 i in let* b := rd c2 i in
            let* d := msubtract b a in Ok (mnorm d ^ 2)) in Ok (acc + y))).
        2:{ intros i s Hi. rewrite Nat.add_0_l. destruct (rd c1 i); cbn [bind]; auto.
            destruct (rd c2 i); cbn [bind]; auto. destruct (msubtract _ _); reflexivity. }
        assert (EL : length c1 = length (combine c1 c2)).
        { rewrite combine_length. rewrite (Forall2_len _ _ _ Hc). lia. }
        rewrite EL. rewrite (loop_add (combine c1 c2) _ (fun u => sum_sq_diff (elts (snd u)) (elts (fst u)))).
        - f_equal. f_equal. clear -Hc. induction Hc as [|m m' c1 c2 (W & W' & HR & HC) Hc IH]; simpl; auto.
          rewrite sum_sq_app; [rewrite IH; reflexivity|]. unfold mwf in *. congruence.
        - intros i [x y] Hxy. assert (Hx : nth_error c1 i = Some x /\ nth_error c2 i = Some y).
          { revert i Hxy. clear. revert c2. induction c1; intros [|z c2] [|i] H; simpl in *; try discriminate; auto.
            inversion H; auto. }
          destruct Hx as (Hx & Hy). rewrite (rd_some _ _ _ Hx), (rd_some _ _ _ Hy). cbn [bind].
          destruct (Forall2_nth_error _ _ _ Hc i x y Hx Hy) as (Wx & Wy & HR & HC).
          destruct (msubtract_ok x y) as (d & -> & E); auto. cbn [bind fst snd]. rewrite E. reflexivity. }
      rewrite EI. cbn [bind].
      specialize (IH (S (length pre1)) (pre1 ++ [c1]) (pre2 ++ [c2]) d2'
        (acc + sum_sq_diff (concat (map (@elts R) c2)) (concat (map (@elts R) c1)))).
      rewrite <- !app_assoc in IH. cbn [app] in IH. etransitivity; [apply IH|].
      4:{ f_equal. rewrite sum_sq_app; [ring|].
        clear -Hc. induction Hc as [|m m' c1 c2 (W & W' & HR & HC) Hc IH]; simpl; auto.
        rewrite !app_length, IH. unfold mwf in *. congruence. }
      + rewrite app_length; simpl; lia.
      + rewrite app_length; simpl; lia.
      + auto. }
  specialize (G 0%nat [] [] d1 d2 0 eq_refl eq_refl H). cbn [app] in G. etransitivity; [apply G|]. f_equal. ring.
Qed.

(** ** Distance *)
Lemma to_int_id x : (0 <= x < 2 ^ 31)%Z -> to_int x = x.
Proof. intros. unfold to_int. rewrite Z.mod_small by lia. lia. Qed.
Lemma to_size_id x : (0 <= x < 2 ^ 64)%Z -> to_size x = x.
Proof. intros. unfold to_size. apply Z.mod_small. auto. Qed.
Lemma prod_pos l : Forall (fun n => 1 <= n)%Z l -> (1 <= fold_right Z.mul 1 l)%Z.
Proof. induction 1; simpl; [lia|]. nia. Qed.
Lemma signal_size_ok l : Forall (fun n => 1 <= n)%Z l -> (fold_right Z.mul 1 l < 2 ^ 31)%Z ->
  signal_size l = fold_right Z.mul 1%Z l.
Proof.
  intros HF HB. unfold signal_size.
  assert (G : forall l a, Forall (fun n => 1 <= n)%Z l -> (1 <= a)%Z -> (a * fold_right Z.mul 1 l < 2 ^ 31)%Z ->
    fold_left (fun acc n => to_int (to_size (to_size acc * n))) l a = (a * fold_right Z.mul 1 l)%Z).
  { clear. induction l as [|n l IH]; intros a HF Ha HB; simpl; [lia|]. inversion HF; subst.
    pose proof (prod_pos l H2) as HP. cbn [fold_right] in HB.
    assert (a * n <= a * n * fold_right Z.mul 1 l)%Z by nia.
    assert (a <= a * n)%Z by nia.
    rewrite (to_size_id a) by lia. rewrite (to_size_id (a * n)) by lia. rewrite to_int_id by lia.
    rewrite IH; auto; nia. }
  rewrite G by (auto; lia). pose proof (prod_pos l HF). rewrite to_size_id; lia.
Qed.
Lemma list_Z_eqb_refl l : list_Z_eqb l l = true.
Proof.
  unfold list_Z_eqb. rewrite Nat.eqb_refl. cbn [andb]. induction l; simpl; auto. rewrite Z.eqb_refl. auto.
Qed.

Theorem distance_value b1 b2 p : bpar b1 = p -> comparable p (bpar b2) -> small_shape p -> same_sizes b1 b2 ->
  distance b1 b2 = Ok (Num (sum_sq_diff (all_values b1) (all_values b2) / IZR (samples p))).
Proof.
  intros Hp (H1 & H2 & H3) (HP & HB & Hs & HN) HS. unfold distance. rewrite Hp, H1, H2.
  rewrite Z.eqb_refl, list_Z_eqb_refl. cbn [andb guard bind]. rewrite H3, Z.sub_diag.
  change (to_size 0) with 0%Z. cbn [Z.eqb]. rewrite calc_ok by auto. cbn [bind].
  rewrite <- H2, <- H1. rewrite signal_size_ok by auto. fold (channel_samples p). fold (samples p).
  assert (1 <= samples p)%Z.
  { unfold samples. pose proof (prod_pos (shape p) HP) as Hq. fold (channel_samples p) in Hq. nia. }
  rewrite to_size_id by lia.
  replace (samples p =? 0)%Z with false by lia. rewrite (sum_sq_sym (all_values b1)). reflexivity.
Qed.

Lemma sum_sq_nonneg l l' : 0 <= sum_sq_diff l l'.
Proof. unfold sum_sq_diff. induction (combine l l') as [|u m IH]; simpl; [lra|]. pose proof (Rle_0_sqr (fst u - snd u)). unfold Rsqr in *. lra. Qed.
Lemma sum_sq_zero l l' : length l = length l' -> (sum_sq_diff l l' = 0 <-> l = l').
Proof.
  intros HL. split.
  - revert l' HL; induction l as [|x l IH]; intros [|y l'] HL; simpl in *; try discriminate; auto.
    unfold sum_sq_diff; cbn [combine fold_right fst snd]. fold (sum_sq_diff l l'). intros H.
    pose proof (sum_sq_nonneg l l'). pose proof (Rle_0_sqr (x - y)) as Hq. unfold Rsqr in Hq.
    assert (E : (x - y) * (x - y) = 0) by lra. apply Rmult_integral in E.
    f_equal; [destruct E; lra|]. apply IH; [lia|lra].
  - intros <-. unfold sum_sq_diff. clear HL. induction l as [|x l IH]; cbn [combine fold_right fst snd]; [reflexivity|]. rewrite IH. ring.
Qed.

Lemma app_split {X} (a b c d : list X) : length a = length c -> a ++ b = c ++ d -> a = c /\ b = d.
Proof.
  revert c; induction a as [|x a IH]; intros [|y c] HL H; simpl in *; try discriminate; auto.
  inversion H; subst. destruct (IH c) as (-> & ->); auto.
Qed.
Lemma same_sizes_len b1 b2 : same_sizes b1 b2 -> length (all_values b1) = length (all_values b2).
Proof.
  unfold same_sizes, all_values. induction 1 as [|c1 c2 d1 d2 Hc Hd IH]; simpl; auto.
  rewrite !app_length, IH. f_equal. clear -Hc. induction Hc as [|m m' c1 c2 (W & W' & HR & HC) Hc IH]; simpl; auto.
  rewrite !app_length, IH. unfold mwf in *. congruence.
Qed.
Lemma all_values_inj b1 b2 : same_sizes b1 b2 -> all_values b1 = all_values b2 -> bdec b1 = bdec b2.
Proof.
  unfold same_sizes, all_values. generalize (bdec b1), (bdec b2). intros d1 d2 H.
  induction H as [|c1 c2 d1 d2 Hc Hd IH]; simpl; auto. intros E.
  assert (HL : length (concat (map (@elts R) c1)) = length (concat (map (@elts R) c2))).
  { clear -Hc. induction Hc as [|m m' c1 c2 (W & W' & HR & HC) Hc IH]; simpl; auto.
    rewrite !app_length, IH. unfold mwf in *. congruence. }
  apply app_split in E as (E1 & E2); auto. f_equal; auto.
  clear -Hc E1. induction Hc as [|m m' c1 c2 (W & W' & HR & HC) Hc IH]; simpl in *; auto.
  apply app_split in E1 as (E1 & E2); [|unfold mwf in *; congruence]. f_equal; auto.
  destruct m, m'; cbn in *; congruence.
Qed.
Lemma same_sizes_sym b1 b2 : same_sizes b1 b2 -> same_sizes b2 b1.
Proof.
  unfold same_sizes. induction 1 as [|c1 c2 d1 d2 Hc Hd IH]; constructor; auto.
  clear -Hc. induction Hc as [|m m' c1 c2 (W & W' & HR & HC) Hc IH]; constructor; auto.
Qed.

(** triangle inequality for lists *)
Lemma lsum_nth2 (l l' : list R) : length l = length l' ->
  sum_sq_diff l l' = rsum2 (length l) 1 (fun i _ => sq (nth i l 0 - nth i l' 0)).
Proof.
  intros HL. rewrite sum_sq_lsum. unfold rsum2. cbn [rsum].
  rewrite <- (lsum_seq0 (length l) (fun i => 0 + sq (nth i l 0 - nth i l' 0))).
  assert (E : combine l l' = map (fun i => (nth i l 0, nth i l' 0)) (seq 0 (length l))).
  { revert l' HL; induction l as [|x l IH]; intros [|y l'] HL; simpl in *; try discriminate; auto.
    f_equal. rewrite IH by lia. rewrite <- seq_shift, map_map. reflexivity. }
  rewrite E, lsum_map. apply lsum_ext. intros. unfold sd, sq; simpl. ring.
Qed.
Lemma sum_sq_triangle l1 l2 l3 : length l1 = length l2 -> length l2 = length l3 ->
  sqrt (sum_sq_diff l1 l3) <= sqrt (sum_sq_diff l1 l2) + sqrt (sum_sq_diff l2 l3).
Proof.
  intros H1 H2. rewrite !lsum_nth2 by congruence. rewrite <- H1.
  pose proof (nrm_triang (length l1) 1 (fun i _ => nth i l1 0 - nth i l2 0) (fun i _ => nth i l2 0 - nth i l3 0)) as H.
  unfold nrm in H. eapply Rle_trans; [|apply H]. apply Req_le. f_equal. apply rsum2_ext. intros. f_equal. ring.
Qed.

Lemma sqrt_div_pos x n : 0 < n -> 0 <= x -> sqrt (x / n) = sqrt x / sqrt n.
Proof. intros. apply sqrt_div; auto. Qed.

Theorem metric b1 b2 b3 p : bpar b1 = p -> comparable p (bpar b2) -> comparable p (bpar b3) -> small_shape p ->
  same_sizes b1 b2 -> same_sizes b2 b3 -> same_sizes b1 b3 ->
  exists d12 d23 d13, distance b1 b2 = Ok (Num d12) /\ distance b2 b1 = Ok (Num d12) /\
    distance b2 b3 = Ok (Num d23) /\ distance b1 b3 = Ok (Num d13) /\
    0 <= d12 /\ (d12 = 0 <-> bdec b1 = bdec b2) /\ sqrt d13 <= sqrt d12 + sqrt d23.
Proof.
  intros Hp C2 C3 HS S12 S23 S13.
  assert (HS2 : small_shape (bpar b2)).
  { destruct C2 as (E1 & E2 & E3). destruct HS as (A1 & A2 & A3 & A4). unfold small_shape, samples, channel_samples in *.
    rewrite <- E1, <- E2. auto. }
  assert (HN : 0 < IZR (samples p)).
  { apply IZR_lt. destruct HS as (A1 & A2 & A3 & A4). unfold samples.
    pose proof (prod_pos (shape p) A1) as Hq. fold (channel_samples p) in Hq. nia. }
  assert (E2 : samples (bpar b2) = samples p).
  { destruct C2 as (A1 & A2 & A3). unfold samples, channel_samples. rewrite <- A1, <- A2. reflexivity. }
  assert (C21 : comparable (bpar b2) (bpar b1)) by (destruct C2 as (? & ? & ?); repeat split; rewrite Hp; congruence).
  assert (C23 : comparable (bpar b2) (bpar b3)) by (destruct C2 as (? & ? & ?), C3 as (? & ? & ?); repeat split; congruence).
  do 3 eexists.
  split; [apply (distance_value b1 b2 p); auto|].
  split.
  { rewrite (distance_value b2 b1 (bpar b2)); auto using same_sizes_sym. rewrite E2, sum_sq_sym. reflexivity. }
  split; [apply (distance_value b2 b3 (bpar b2)); auto|].
  split; [apply (distance_value b1 b3 p); auto|].
  rewrite E2. set (N := IZR (samples p)) in *.
  assert (HI : 0 < / N) by (apply Rinv_0_lt_compat; auto).
  split; [|split].
  - apply Rmult_le_pos; [apply sum_sq_nonneg|lra].
  - split.
    + intros H. apply all_values_inj; auto. apply sum_sq_zero; [apply same_sizes_len; auto|].
      apply Rmult_integral in H as [H|H]; [auto|lra].
    + intros H. unfold all_values. rewrite H.
      replace (sum_sq_diff _ _) with 0; [unfold Rdiv; ring|]. symmetry. apply sum_sq_zero; auto.
  - rewrite !sqrt_div_pos by (auto; apply sum_sq_nonneg).
    pose proof (sum_sq_triangle (all_values b1) (all_values b2) (all_values b3)
       (same_sizes_len _ _ S12) (same_sizes_len _ _ S23)) as HT.
    assert (0 < sqrt N) by (apply sqrt_lt_R0; auto).
    assert (0 < / sqrt N) by (apply Rinv_0_lt_compat; auto). unfold Rdiv. nra.
Qed.

Lemma distance_nan b1 b2 : signum (bpar b1) = signum (bpar b2) -> shape (bpar b1) = shape (bpar b2) ->
  params_rep (bpar b1) -> params_rep (bpar b2) -> steps (bpar b1) <> steps (bpar b2) -> distance b1 b2 = Ok NaN.
Proof.
  intros H1 H2 P1 P2 H3. unfold distance. rewrite H1, H2, Z.eqb_refl, list_Z_eqb_refl. cbn [andb guard bind].
  replace (to_size _ =? 0)%Z with false; [reflexivity|]. symmetry. apply Z.eqb_neq. unfold to_size.
  assert (0 <= steps (bpar b1) < 2 ^ 64)%Z by apply P1. assert (0 <= steps (bpar b2) < 2 ^ 64)%Z by apply P2.
  intros E. apply Z.mod_divide in E; [|lia]. destruct E as (k & E). nia.
Qed.

(** decomposed buffers of the same parameters have the same sizes *)
Lemma Forall2_of_nth {X Y} (P : X -> Y -> Prop) l l' : length l = length l' ->
  (forall i x y, nth_error l i = Some x -> nth_error l' i = Some y -> P x y) -> Forall2 P l l'.
Proof.
  revert l'; induction l as [|x l IH]; intros [|y l'] HL H; try discriminate; constructor.
  - apply (H 0%nat); auto.
  - apply IH; [simpl in HL; lia|]. intros i a b Ha Hb. apply (H (S i)); auto.
Qed.
Lemma layouts_same p (b1 b2 : buffer R) : length (bdec b1) = length (bdec b2) ->
  Forall (has_layout p) (bdec b1) -> Forall (has_layout p) (bdec b2) -> same_sizes b1 b2.
Proof.
  intros HL H1 H2. unfold same_sizes. apply Forall2_of_nth; auto. intros c c1 c2 E1 E2.
  rewrite Forall_forall in H1, H2. destruct (H1 c1 (nth_error_In _ _ E1)) as (L1 & D1 & A1).
  destruct (H2 c2 (nth_error_In _ _ E2)) as (L2 & D2 & A2).
  apply Forall2_of_nth; [congruence|]. intros k m m' Em Em'.
  assert (Hk : (k < nsteps p * bands p + 1)%nat) by (rewrite <- L1; apply nth_error_Some; congruence).
  destruct (Nat.eq_dec k (nsteps p * bands p)) as [->|Hne].
  - destruct (A1 m Em) as (? & ? & ?), (A2 m' Em') as (? & ? & ?). repeat split; auto; congruence.
  - assert (Hb : (0 < bands p)%nat) by (unfold bands; destruct (is_1d p); lia).
    assert (Ek : k = (k / bands p * bands p + k mod bands p)%nat) by (rewrite Nat.mul_comm; apply Nat.div_mod; lia).
    rewrite Ek in Em, Em'.
    assert (k / bands p < nsteps p)%nat by (apply Nat.div_lt_upper_bound; lia).
    assert (k mod bands p < bands p)%nat by (apply Nat.mod_upper_bound; lia).
    destruct (D1 _ _ m H H0 Em) as (? & ? & ?), (D2 _ _ m' H H0 Em') as (? & ? & ?). repeat split; auto; congruence.
Qed.

Section DB1.
Variable p : params.
Hypothesis HA : accepted p.

Lemma layout_comparable q : comparable p q -> forall ch : list (mat R), has_layout q ch -> has_layout p ch.
Proof.
  intros (H1 & H2 & H3) ch. unfold has_layout, nsteps, bands, is_1d, level_rows, level_cols, is_1d, nsteps, drows, dcols.
  rewrite H2, H3. auto.
Qed.

Theorem decomposed_metric b1 b2 b3 d1 d2 d3 den1 den2 den3 b1' b2' b3' :
  small_shape p -> reachable p b1 -> reachable p b2 -> reachable p b3 ->
  keeps_shape den1 -> keeps_shape den2 -> keeps_shape den3 ->
  Z.of_nat (length d1) = signum p -> Z.of_nat (length d2) = signum p -> Z.of_nat (length d3) = signum p ->
  Forall (shaped p) d1 -> Forall (shaped p) d2 -> Forall (shaped p) d3 ->
  decompose b1 d1 den1 = Ok (true, b1') -> decompose b2 d2 den2 = Ok (true, b2') -> decompose b3 d3 den3 = Ok (true, b3') ->
  exists d12 d23 d13, distance b1' b2' = Ok (Num d12) /\ distance b2' b1' = Ok (Num d12) /\
    distance b2' b3' = Ok (Num d23) /\ distance b1' b3' = Ok (Num d13) /\
    0 <= d12 /\ (d12 = 0 <-> bdec b1' = bdec b2') /\ sqrt d13 <= sqrt d12 + sqrt d23.
Proof.
  intros HS R1 R2 R3 K1 K2 K3 L1 L2 L3 S1 S2 S3 D1 D2 D3.
  assert (Hs : (1 <= signum p)%Z) by apply HS.
  destruct (decompose_compose_safe' p b1 d1 den1 HA R1 K1 Hs L1 S1) as (c1 & E1 & P1 & N1 & Y1 & _).
  destruct (decompose_compose_safe' p b2 d2 den2 HA R2 K2 Hs L2 S2) as (c2 & E2 & P2 & N2 & Y2 & _).
  destruct (decompose_compose_safe' p b3 d3 den3 HA R3 K3 Hs L3 S3) as (c3 & E3 & P3 & N3 & Y3 & _).
  assert (c1 = b1') by congruence. assert (c2 = b2') by congruence. assert (c3 = b3') by congruence. subst c1 c2 c3.
  apply (metric b1' b2' b3' p); auto; try (repeat split; congruence);
    apply (layouts_same p); auto; lia.
Qed.

(** DB1 without padding: the mean squared difference of the samples *)
Lemma sum_sq_energy (x y : list R) : length x = length y ->
  sum_sq_diff x y = fold_right (fun z s => z * z + s) 0 (map (fun u => 1 * fst u + -1 * snd u) (combine x y)).
Proof.
  intros _. unfold sum_sq_diff. induction (combine x y); simpl; auto. rewrite IHl. ring.
Qed.

Lemma has_layout_wf (ch : list (mat R)) k m : has_layout p ch -> nth_error ch k = Some m -> mwf m.
Proof.
  intros (L1 & D1 & A1) Em.
  assert (Hk : (k < nsteps p * bands p + 1)%nat) by (rewrite <- L1; apply nth_error_Some; congruence).
  destruct (Nat.eq_dec k (nsteps p * bands p)) as [->|Hne]; [apply A1; auto|].
  assert (Hb : (0 < bands p)%nat) by (unfold bands; destruct (is_1d p); lia).
  assert (Ek : k = (k / bands p * bands p + k mod bands p)%nat) by (rewrite Nat.mul_comm; apply Nat.div_mod; lia).
  rewrite Ek in Em.
  assert (k / bands p < nsteps p)%nat by (apply Nat.div_lt_upper_bound; lia).
  assert (k mod bands p < bands p)%nat by (apply Nat.mod_upper_bound; lia).
  apply (D1 _ _ m H H0 Em).
Qed.
Definition mdiff (x y : mat R) : mat R := Mat (rows x) (cols x) (map (fun u => 1 * fst u + -1 * snd u) (combine (elts x) (elts y))).
Lemma mdiff_shaped x y : shaped p x -> shaped p y -> shaped p (mdiff x y) /\ combines 1 (-1) x y (mdiff x y).
Proof.
  intros (W & R1 & C1) (W' & R2 & C2). split.
  - split; auto. unfold mwf, mdiff in *; cbn [rows cols elts]. rewrite map_length, combine_length. rewrite R1, C1, R2, C2 in *. lia.
  - repeat split; cbn; congruence.
Qed.
Lemma channel_diff x y : wtype p = 1%Z -> shaped p x -> shaped p y ->
  level_rows p 0 = drows p -> level_cols p 0 = dcols p ->
  sum_sq_diff (concat (map (@elts R) (dec_of p null_denoiser x))) (concat (map (@elts R) (dec_of p null_denoiser y)))
  = sum_sq_diff (elts x) (elts y).
Proof.
  intros Et HX HY H1 H2. destruct (mdiff_shaped x y HX HY) as (HZ & HC).
  assert (E : sum_sq_diff (elts x) (elts y) = energy (mdiff x y)).
  { rewrite sum_sq_energy; [reflexivity|]. destruct HX as (W & ? & ?), HY as (W' & ? & ?). unfold mwf in *. congruence. }
  rewrite E. rewrite <- (padded_energy_id p (mdiff x y)) by auto. rewrite <- (energy_db1 p HA) by auto.
  assert (LX : length (dec_of p null_denoiser x) = length (dec_of p null_denoiser y)) by (unfold dec_of; rewrite !dec_pure_length; auto).
  assert (LZ : length (dec_of p null_denoiser (mdiff x y)) = length (dec_of p null_denoiser y)) by (unfold dec_of; rewrite !dec_pure_length; auto).
  pose proof (dec_lin p HA 1 (-1) x y (mdiff x y)) as HL.
  assert (G : forall X Y Z : list (mat R), length X = length Y -> length Z = length Y ->
    (forall k sx sy sz, nth_error X k = Some sx -> nth_error Y k = Some sy -> nth_error Z k = Some sz ->
       mwf sx /\ mwf sy /\ combines 1 (-1) sx sy sz) ->
    sum_sq_diff (concat (map (@elts R) X)) (concat (map (@elts R) Y)) = channel_energy Z).
  { clear. induction X as [|x X IH]; intros [|y Y] [|z Z] L1 L2 H; simpl in *; try discriminate; auto.
    destruct (H 0%nat x y z eq_refl eq_refl eq_refl) as (W & W' & H1 & H2 & H3 & H4 & H5).
    assert (length (elts x) = length (elts y)) by (unfold mwf in *; congruence).
    rewrite sum_sq_app by auto. rewrite (IH Y Z) by (auto; intros k; apply (H (S k))). f_equal.
    unfold energy. rewrite H5. apply sum_sq_energy; auto. }
  apply G; auto. intros k sx sy sz Ex Ey Ez. split; [|split; [|eapply HL; eauto]].
  - apply (has_layout_wf (dec_of p null_denoiser x) k); auto. apply dec_of_layout; auto. apply null_keeps.
  - apply (has_layout_wf (dec_of p null_denoiser y) k); auto. apply dec_of_layout; auto. apply null_keeps.
Qed.

Theorem mean_squared b1 b2 d1 d2 b1' b2' : wtype p = 1%Z -> small_shape p ->
  level_rows p 0 = drows p -> level_cols p 0 = dcols p ->
  reachable p b1 -> reachable p b2 ->
  Z.of_nat (length d1) = signum p -> Z.of_nat (length d2) = signum p ->
  Forall (shaped p) d1 -> Forall (shaped p) d2 ->
  decompose b1 d1 null_denoiser = Ok (true, b1') -> decompose b2 d2 null_denoiser = Ok (true, b2') ->
  distance b1' b2' = Ok (Num (sum_sq_diff (concat (map (@elts R) d1)) (concat (map (@elts R) d2)) / IZR (samples p))).
Proof.
  intros Et HS H1 H2 R1 R2 L1 L2 S1 S2 D1 D2.
  assert (Hs : (1 <= signum p)%Z) by apply HS.
  rewrite (dec_ok p HA) in D1, D2 by auto. inversion D1; inversion D2; subst b1' b2'; clear D1 D2.
  rewrite (distance_value _ _ p); auto; [|repeat split|].
  - do 2 f_equal. f_equal. unfold all_values; cbn [bdec]. rewrite !map_map.
    assert (HL : length d1 = length d2) by lia. clear L1 L2.
    revert d2 S2 HL; induction d1 as [|x d1 IH]; intros [|y d2] S2 HL; try discriminate; [reflexivity|].
    inversion S1 as [|? ? Sx Sd1]; inversion S2 as [|? ? Sy Sd2]; subst. cbn [map concat].
    rewrite !sum_sq_app.
    + f_equal; [|apply IH; auto; simpl in HL; lia]. apply channel_diff; auto.
    + destruct Sx as (W & ? & ?), Sy as (W' & ? & ?). unfold mwf in *. congruence.
    + assert (SS : same_sizes (Buffer p [dec_of p null_denoiser x]) (Buffer p [dec_of p null_denoiser y])).
      { apply (layouts_same p); auto; cbn [bdec]; (constructor; [|constructor]); apply dec_of_layout; auto; apply null_keeps. }
      apply same_sizes_len in SS. unfold all_values in SS. cbn [bdec map concat] in SS. rewrite !app_nil_r in SS. exact SS.
  - apply (layouts_same p); cbn [bdec]; rewrite ?map_length; [lia| |];
      apply Forall_forall; intros ch Hc; apply in_map_iff in Hc as (m & <- & _); apply dec_of_layout; auto; apply null_keeps.
Qed.

(** ** EnergyDistribution *)
Lemma subband_energy_ok m : subband_energy m = energy m.
Proof.
  unfold subband_energy, energy. rewrite (fold_left_lsum _ (fun x => x * x)), Rplus_0_l, fold_sum, lsum_filter.
  apply lsum_ext. intros x _. unfold nonzero, sq. destruct (Req_EM_T x 0) as [->|]; ring.
Qed.
Lemma energy_nonneg m : 0 <= energy m.
Proof. unfold energy. induction (elts m); simpl; [lra|]. pose proof (Rle_0_sqr a). unfold Rsqr in *. lra. Qed.

Lemma energy_distribution_ok (b : buffer R) :
  (no_elements b -> energy_distribution b = []) /\
  (~ no_elements b -> energy_distribution b = map (map energy) (bdec b) /\ bdec b <> []) /\
  Forall (Forall (fun e => 0 <= e)) (energy_distribution b).
Proof.
  assert (E : map (map subband_energy) (bdec b) = map (map energy) (bdec b)).
  { apply map_ext. intros. apply map_ext. apply subband_energy_ok. }
  unfold energy_distribution. split; [|split].
  - intros H. apply is_empty_iff in H. rewrite H. reflexivity.
  - intros H. destruct (is_empty b) eqn:Eb; [exfalso; apply H, is_empty_iff; auto|]. split; auto.
    intros E0. apply H. intros ch m Hc. rewrite E0 in Hc. destruct Hc.
  - destruct (is_empty b); [constructor|]. rewrite E. apply Forall_forall. intros l Hl.
    apply in_map_iff in Hl as (ch & <- & _). apply Forall_forall. intros e He. apply in_map_iff in He as (m & <- & _).
    apply energy_nonneg.
Qed.
Lemma sum_energy ch : fold_right Rplus 0 (map energy ch) = channel_energy ch.
Proof. unfold channel_energy. induction ch; simpl; auto. rewrite IHch. reflexivity. Qed.

Theorem energies_add_up b b' data : wtype p = 1%Z -> Forall (fun n => (1 <= n)%Z) (shape p) -> reachable p b ->
  (1 <= signum p)%Z -> Z.of_nat (length data) = signum p -> Forall (shaped p) data ->
  decompose b data null_denoiser = Ok (true, b') ->
  length (energy_distribution b') = length data /\
  forall c m es, nth_error data c = Some m -> nth_error (energy_distribution b') c = Some es ->
    length es = (nsteps p * bands p + 1)%nat /\ fold_right Rplus 0 es = padded_energy p m.
Proof.
  intros Et HP HR Hs HL HS HD.
  assert (Hne : ~ no_elements b').
  { intros H. apply is_empty_iff in H.
    destruct (@empty_facts R _) as (_ & _ & HE).
    assert (HW : Forall mwf data) by (eapply Forall_impl; [|apply HS]; intros a Ha; apply Ha).
    pose proof (HE p b b' data null_denoiser HA HP HR null_keeps HW Hs HD). congruence. }
  destruct (energy_distribution_ok b') as (_ & H2 & _). destruct (H2 Hne) as (-> & _).
  destruct (energy_preserved p HA b b' data Et HR Hs HL HS HD) as (HLen & HE).
  rewrite map_length. split; auto. intros c m es Hm He. apply nth_error_map_some in He as (ch & Ec & ->).
  destruct (HE c m ch Hm Ec) as (E1 & _). rewrite map_length, sum_energy. split; auto.
  destruct (decompose_compose_safe' p b data null_denoiser HA HR null_keeps Hs HL HS) as (b1 & HD1 & _ & _ & HLay & _).
  assert (b1 = b') by congruence. subst b1. rewrite Forall_forall in HLay.
  apply (HLay ch). eapply nth_error_In; eauto.
Qed.

(** ** GetValueRange *)
Let g := geom_of p.
Let Gw : gwf g := geom_wf p HA.
Definition gn : R := if is_1d p then sqrt 2 else 2.

Lemma gn_bounds : 1 <= gn <= 2.
Proof.
  unfold gn. destruct (is_1d p); [|lra]. split.
  - rewrite <- sqrt_1. apply sqrt_le_1; lra.
  - assert (S2 : sqrt 2 * sqrt 2 = 2) by (apply sqrt_sqrt; lra). assert (0 < sqrt 2) by (apply sqrt_lt_R0; lra). nra.
Qed.

Lemma ap_bound x M s : wtype p = 1%Z -> (forall i j, 0 <= x i j <= M) -> (s <= gK g)%nat ->
  forall i j, (i < hs g s)%nat -> (j < ws g s)%nat -> 0 <= ap g x s i j <= gn ^ s * M.
Proof.
  intros Et Hx Hs i j Hi Hj. unfold g. rewrite (ap_block p HA) by auto.
  assert (Hc : 0 < cf p).
  { unfold cf. destruct (is_1d p); [|lra]. assert (0 < sqrt 2) by (apply sqrt_lt_R0; lra). lra. }
  assert (Hcs : 0 < cf p ^ s) by (apply pow_lt; auto).
  set (S := rsum (2 ^ s) _).
  assert (HS : 0 <= S <= INR (2 ^ s * wb p s) * M).
  { unfold S. split.
    - apply rsum_nonneg. intros. apply rsum_nonneg. intros. apply Hx.
    - rewrite mult_INR, Rmult_assoc, <- !rsum_const.
      apply rsum_le. intros. apply rsum_le. intros. apply Hx. }
  split; [apply Rmult_le_pos; lra|].
  unfold gn. rewrite <- (cf_gain p HA), Rmult_assoc. apply Rmult_le_compat_l; lra.
Qed.

Lemma det_bound x M s b d i j : wtype p = 1%Z -> (forall i j, 0 <= x i j <= M) -> (s < gK g)%nat ->
  nth_error (detf g x s) b = Some d -> (i < hs g (S s))%nat -> (j < ws g (S s))%nat ->
  - (gn ^ s * M) <= d i j <= gn ^ s * M.
Proof.
  intros Et Hx Hs Hd Hi Hj. rewrite (det_glue g Gw x s b i j d) by auto.
  assert (Eg : gt g = 1%Z) by (unfold g; rewrite <- (geom_t p HA); auto).
  assert (Hb : (b < gspw g)%nat).
  { rewrite <- (detf_length g x s). apply nth_error_Some. congruence. }
  unfold Ans. set (y := ap g x s). set (B := gn ^ s * M).
  pose proof (hs_step g s Gw Hs) as (Hh & _).
  assert (Hy : forall i j, (i < hs g s)%nat -> (j < ws g s)%nat -> 0 <= y i j <= B) by (intros; apply ap_bound; auto; lia).
  assert (S2 : sqrt 2 * sqrt 2 = 2) by (apply sqrt_sqrt; lra).
  assert (Sp : 0 < sqrt 2) by (apply sqrt_lt_R0; lra).
  rewrite Eg. unfold An, WM. rewrite Eg.
  destruct (gdim_cases g Gw) as [E|E]; rewrite E; cbn [Nat.eqb].
  - unfold gspw in Hb. rewrite E in Hb. cbn [Nat.eqb] in Hb. replace b with 0%nat by lia. unfold offr, offc; cbn [Nat.eqb].
    rewrite (ws_1 g s E) in *. rewrite (ws_1 g (S s) E) in Hj. replace j with 0%nat by lia.
    match goal with |- _ <= ?e <= _ => assert (EE : e = sqrt 2 / 2 * (y (2 * i)%nat 0%nat - y (2 * i + 1)%nat 0%nat)) end.
    { rewrite Hh at 1 2. rewrite (proj2 (HM1 (hs g (S s)) _ i Hi)).
      rewrite !(proj1 (idm_mv 1 _ 0%nat (Nat.lt_0_1))). reflexivity. }
    rewrite EE.
    pose proof (Hy (2 * i)%nat 0%nat ltac:(lia) ltac:(lia)). pose proof (Hy (2 * i + 1)%nat 0%nat ltac:(lia) ltac:(lia)).
    set (u := y (2 * i)%nat 0%nat) in *. set (v := y (2 * i + 1)%nat 0%nat) in *.
    assert (sqrt 2 / 2 < 1) by nra. assert (- B <= u - v <= B) by lra.
    split; nra.
  - pose proof (ws_step g s Gw E Hs) as (Hw & _).
    assert (Hrow : forall i', (i' < hs g s)%nat -> forall j, (j < ws g (S s))%nat ->
       0 <= mv (ws g s) (HM 1 (ws g s)) (y i') j <= sqrt 2 / 2 * (B + B) /\
       - (sqrt 2 / 2 * B) <= mv (ws g s) (HM 1 (ws g s)) (y i') (ws g (S s) + j) <= sqrt 2 / 2 * B).
    { intros i' Hi' j' Hj'. destruct (HM1 (ws g (S s)) (y i') j' Hj') as [E1 E2]. rewrite <- Hw in E1, E2. rewrite E1, E2.
      pose proof (Hy i' (2 * j')%nat ltac:(lia) ltac:(lia)). pose proof (Hy i' (2 * j' + 1)%nat ltac:(lia) ltac:(lia)).
      set (u := y i' (2 * j')%nat) in *. set (v := y i' (2 * j' + 1)%nat) in *.
      repeat split; nra. }
    unfold gspw in Hb. rewrite E in Hb. cbn [Nat.eqb] in Hb.
    set (q := sqrt 2 / 2) in *. assert (Q2 : q * q = 1 / 2) by (unfold q; lra). assert (Qp : 0 < q) by (unfold q; lra).
    destruct (Hrow (2 * i)%nat ltac:(lia) j Hj) as (A1 & A2). destruct (Hrow (2 * i + 1)%nat ltac:(lia) j Hj) as (A3 & A4).
    destruct b as [|[|[|b]]]; [| | |lia]; unfold offr, offc; cbn [Nat.eqb]; idtac.
    + match goal with |- _ <= ?e <= _ => assert (EE : e = q * (mv (ws g s) (HM 1 (ws g s)) (y (2 * i)%nat) j - mv (ws g s) (HM 1 (ws g s)) (y (2 * i + 1)%nat) j)) end.
      { rewrite Hh at 1 2. rewrite (proj2 (HM1 (hs g (S s)) _ i Hi)). reflexivity. }
      rewrite EE.
      set (u := mv _ _ (y (2 * i)%nat) j) in *. set (v := mv _ _ (y (2 * i + 1)%nat) j) in *.
      assert (q * (B + B) * q = B) by (replace (q * (B + B) * q) with (q * q * (B + B)) by ring; rewrite Q2; lra).
      split; nra.
    + match goal with |- _ <= ?e <= _ => assert (EE : e = q * (mv (ws g s) (HM 1 (ws g s)) (y (2 * i)%nat) (ws g (S s) + j) + mv (ws g s) (HM 1 (ws g s)) (y (2 * i + 1)%nat) (ws g (S s) + j))) end.
      { rewrite Hh at 1 2. rewrite (proj1 (HM1 (hs g (S s)) _ i Hi)). reflexivity. }
      rewrite EE.
      set (u := mv _ _ (y (2 * i)%nat) (ws g (S s) + j)) in *. set (v := mv _ _ (y (2 * i + 1)%nat) (ws g (S s) + j)) in *.
      assert (q * B * q = B / 2) by (replace (q * B * q) with (q * q * B) by ring; rewrite Q2; lra).
      split; nra.
    + match goal with |- _ <= ?e <= _ => assert (EE : e = q * (mv (ws g s) (HM 1 (ws g s)) (y (2 * i)%nat) (ws g (S s) + j) - mv (ws g s) (HM 1 (ws g s)) (y (2 * i + 1)%nat) (ws g (S s) + j))) end.
      { rewrite Hh at 1 2. rewrite (proj2 (HM1 (hs g (S s)) _ i Hi)). reflexivity. }
      rewrite EE.
      set (u := mv _ _ (y (2 * i)%nat) (ws g (S s) + j)) in *. set (v := mv _ _ (y (2 * i + 1)%nat) (ws g (S s) + j)) in *.
      assert (q * B * q = B / 2) by (replace (q * B * q) with (q * q * B) by ring; rewrite Q2; lra).
      split; nra.
Qed.
End DB1.
