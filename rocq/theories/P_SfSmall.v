(** * P_SfSmall: on matrices of at most 2^15 elements the code lengths are complete *)
Require Import List ZArith Lia Bool ZifyBool Reals.
Import ListNotations.
Require Import Flocq.Core.Core Flocq.IEEE754.BinarySingleNaN.
From Verif Require Import M_Base P_Base M_Archive M_Float P_Float M_Sf S_Sf P_Sf M_SfCodec S_SfCodec P_SfTable P_SfMerge P_SfFloat P_SfLens P_SfFirst P_SfCodec P_SfRound.
Open Scope Z_scope.

Definition qty_ok (last : list Z) : Prop := Forall pw2 (code_qty last) /\ sorted_from 1 (code_qty last).

Definition pw2b (q : Z) : bool := (1 <=? q) && (q <=? 2 ^ 31) && (q =? 2 ^ Z.log2 q).
Lemma pw2b_ok q : pw2b q = true -> pw2 q.
Proof.
  unfold pw2b. intros H. apply andb_prop in H as (H & H3). apply andb_prop in H as (H1 & H2). exists (Z.log2 q).
  split; [|lia]. split; [apply Z.log2_nonneg|]. change 31 with (Z.log2 (2 ^ 31)). apply Z.log2_le_mono. lia.
Qed.
Fixpoint sortedb (c : Z) (l : list Z) : bool := match l with [] => true | x :: t => (c <=? x) && sortedb x t end.
Lemma sortedb_ok : forall l c, sortedb c l = true -> sorted_from c l.
Proof. induction l as [|x t IH]; intros c H; [exact I|]. cbn [sortedb sorted_from] in *. apply andb_prop in H. split; [lia|]. apply IH. tauto. Qed.
Lemma qty0 : qty_ok last0.
Proof.
  split; [|apply sortedb_ok; vm_compute; reflexivity]. apply Forall_forall. intros q Hq. apply pw2b_ok.
  assert (F : forallb pw2b (code_qty last0) = true) by (vm_compute; reflexivity). rewrite forallb_forall in F. auto.
Qed.
Lemma qty1 : qty_ok last1.
Proof.
  split; [|apply sortedb_ok; vm_compute; reflexivity]. apply Forall_forall. intros q Hq. apply pw2b_ok.
  assert (F : forallb pw2b (code_qty last1) = true) by (vm_compute; reflexivity). rewrite forallb_forall in F. auto.
Qed.

Lemma sorted_firstn : forall l c n, sorted_from c l -> sorted_from c (firstn n l).
Proof. induction l as [|x t IH]; intros c [|n] H; cbn [firstn sorted_from] in *; auto. split; [tauto|]. apply IH. tauto. Qed.
Lemma Forall_firstn {A} (P : A -> Prop) l n : Forall P l -> Forall P (firstn n l).
Proof. intros H. rewrite <- (firstn_skipn n l) in H. apply Forall_app in H. tauto. Qed.
Lemma shares_firstn : forall qs ls, shares (firstn (length ls) qs) ls = shares qs ls.
Proof.
  induction qs as [|q qs IH]; intros [|l ls]; try reflexivity. cbn [length firstn]. rewrite !shares_cons, IH. reflexivity.
Qed.
Lemma shares_multiple M : 0 <= M <= 32 -> forall qs ls, Forall (fun l => 0 <= l <= M) ls -> exists k, shares qs ls = k * 2 ^ (32 - M).
Proof.
  intros HM. induction qs as [|q qs IH]; intros [|l ls] H; try (exists 0; reflexivity).
  inversion H; subst. destruct (IH ls ltac:(auto)) as (k & E). rewrite shares_cons, E. unfold share.
  exists (q * 2 ^ (M - l) + k). rewrite Z.mul_add_distr_r, <- Z.mul_assoc, <- pow2_add by lia. do 3 f_equal. lia.
Qed.

Lemma code_lens_ok last h T : small_table last -> qty_ok last -> setting last h (pools_used h) T ->
  (weight last h (pools_used h) + T) * lower last (pools_used h) <= 2 ^ 31 ->
  exists lens, code_lens last h T = Ok lens /\ length lens = pools_used h /\ complete_lens last lens.
Proof.
  intros Hsm (Q1 & Q2) Se Hc. set (used := pools_used h) in *.
  pose proof (se_used _ _ _ _ Se) as Hu. pose proof (T_pos _ _ _ _ Se) as Tp. pose proof (B_bound _ _ _ _ Se used ltac:(lia)) as Bb.
  assert (B1 : 1 <= lower last used).
  { pose proof (lower_strict last (se_inc _ _ _ _ Se) (se_bnd _ _ _ _ Se) 0 used ltac:(lia)). cbn [lower] in *. lia. }
  assert (Wn : 0 <= weight last h used).
  { pose proof (weight_group last (se_inc _ _ _ _ Se) (se_bnd _ _ _ _ Se) h 0 (se_h _ _ _ _ Se) used
      ltac:(pose proof (se_hlen _ _ _ _ Se); lia) ltac:(lia)) as X. cbn [lower] in X. unfold weight at 2 in X. cbn in X. lia. }
  set (Bu := lower last used) in *. set (W := weight last h used) in *.
  set (M := Z.log2_up (Bu * T)).
  assert (HBT : Bu * T <= 2 ^ 31) by nia.
  assert (HM : 0 <= M <= 31).
  { split; [apply Z.log2_up_nonneg|]. change 31 with (Z.log2_up (2 ^ 31)). apply Z.log2_up_le_mono. lia. }
  assert (HM2 : Bu * T <= 2 ^ M < 2 * (Bu * T)).
  { destruct (Z.eq_dec (Bu * T) 1) as [E|NE].
    - unfold M. rewrite E. cbn. lia.
    - destruct (Z.log2_up_spec (Bu * T) ltac:(nia)) as (L1 & L2). fold M in L1, L2. split; [lia|].
      assert (M <> 0). { intros X. rewrite X in L2. cbn in L2. nia. }
      replace M with (1 + Z.pred M) by lia. rewrite pow2_add by lia. change (2 ^ 1) with 2. lia. }
  unfold code_lens. fold used.
  assert (Er : rdz last (Z.of_nat used - 1) = Ok (Bu - 1)).
  { unfold rdz. destruct (Z.ltb_spec (Z.of_nat used - 1) 0); [lia|]. replace (Z.to_nat (Z.of_nat used - 1)) with (used - 1)%nat by lia.
    rewrite (last_nth' _ _ _ _ Se) by lia. f_equal. unfold Bu. do 2 f_equal. lia. }
  rewrite Er. cbn [bind]. replace (Bu - 1 + 1) with Bu by lia. rewrite (w32_id Bu) by lia.
  destruct (pow2d_val 32 ltac:(lia)) as (E1 & F1). destruct (of_int64 Bu ltac:(lia)) as (E2 & F2).
  destruct (sub_int _ _ _ _ E1 F1 E2 F2 ltac:(lia)) as (E3 & F3).
  destruct (first_pass_ok last h used T Se M HM ltac:(fold Bu; lia) 33 0 [] (f64_sub (pow2d 32) (f64_of_int Bu)))
    as (lens & E & L1 & L2 & L3 & L4); cbn [length]; try lia.
  { rewrite E3. cbn [lower]. fold Bu. f_equal. lia. }
  { exact I. }
  { constructor. }
  { unfold total_share. unfold shares. rewrite combine_nil. cbn [fold_right lower]. unfold count, weight. cbn [firstn seq map].
    replace (sum []) with 0 by reflexivity. lia. }
  cbn [length lower] in E. change (count h 0) with 0 in E. rewrite E. cbn [bind].
  set (qs := firstn used (code_qty last)).
  assert (Sh : shares qs lens = shares (code_qty last) lens) by (unfold qs; rewrite <- L1; apply shares_firstn).
  assert (Le : shares qs lens <= 2 ^ 32).
  { rewrite Sh. destruct (shares_multiple M ltac:(lia) (code_qty last) lens L3) as (k & Ek).
    unfold total_share in L4. rewrite (se_T _ _ _ _ Se) in L4. fold Bu W in L4.
    assert (P : 2 ^ 32 = 2 ^ M * 2 ^ (32 - M)) by (rewrite <- pow2_add by lia; f_equal; lia).
    assert (Pw : 0 < 2 ^ (32 - M)) by (apply pow2_pos; lia).
    set (w := 2 ^ (32 - M)) in *. set (S := shares (code_qty last) lens) in *.
    destruct (Z.le_gt_cases S (2 ^ 32)) as [|G]; [auto|exfalso].
    assert (G2 : 2 ^ 32 + w <= S).
    { assert (2 ^ M < k) by nia. rewrite Ek, P. nia. }
    assert (Gw : W + T < w * T).
    { assert (2 ^ 32 < w * (2 * (Bu * T))) by nia. assert ((W + T) * Bu < w * T * Bu) by lia. nia. }
    assert (Wb : W <= 2 ^ 31) by nia.
    assert (X : (2 ^ 32 + w) * T * 2 ^ 50 <= S * T * 2 ^ 50) by nia.
    assert (Y : (W + T + 1) * 2 ^ 50 <= w * T * 2 ^ 50) by lia.
    pose proof (se_T31 _ _ _ _ Se). lia. }
  assert (L32 : Forall (fun l => 0 <= l <= 32) lens) by (eapply Forall_impl; [|apply L3]; cbn beta; intros; lia).
  assert (Qlen : length qs = length lens).
  { unfold qs. rewrite firstn_length, (qty_len _ _ _ _ Se). lia. }
  destruct (second_pass_ok (S (Z.to_nat (sum lens))) qs lens (2 ^ 32 - shares qs lens)) as (ls' & E' & M1 & M2 & M3 & M4 & M5).
  { auto. }
  { intros X. rewrite X in Qlen. cbn [length] in Qlen. lia. }
  { apply Forall_firstn; auto. }
  { apply sorted_firstn; auto. }
  { auto. }
  { auto. }
  { lia. }
  { lia. }
  { pose proof (sum_nonneg lens ltac:(eapply Forall_impl; [|apply L3]; cbn beta; intros; lia)). lia. }
  change (fold_right Z.add 0 lens) with (sum lens). exists ls'. rewrite E'. split; [reflexivity|]. split; [lia|].
  pose proof (se_0 _ _ _ _ Se) as H0. destruct last as [|x rest]; [discriminate|]. cbn in H0. inversion H0; subst x.
  apply complete_from_shares; auto.
  - lia.
  - clear -M5 L3 HM. revert L3. induction M5; intros L3; constructor; inversion L3; subst; auto; lia.
  - rewrite M1, L1. exact M4.
Qed.

(** ** The histogram of a list of values *)
Lemma pools_used_spec : forall h, Forall (fun x => 0 <= x) h ->
  (forall t, (pools_used h <= t)%nat -> nth t h 0 = 0) /\ (pools_used h <= length h)%nat /\
  ((0 < pools_used h)%nat -> 0 < nth (pools_used h - 1) h 0).
Proof.
  induction h as [|x h IH]; intros F; cbn [pools_used length].
  - split; [intros [|t] _; reflexivity|]. lia.
  - inversion F; subst. destruct (IH ltac:(auto)) as (I1 & I2 & I3). destruct (pools_used h) as [|k] eqn:E.
    + destruct (Z.ltb_spec 0 x).
      * split; [|split; [lia|intros _; cbn; lia]]. intros [|t] Ht; [lia|]. cbn [nth]. apply I1. lia.
      * split; [|lia]. intros [|t] _; cbn [nth]; [lia|]. apply I1. lia.
    + split; [|split; [lia|]].
      * intros [|t] Ht; [lia|]. cbn [nth]. apply I1. lia.
      * intros _. specialize (I3 ltac:(lia)). replace (S (S k) - 1)%nat with (S (S k - 1)) by lia. cbn [nth]. exact I3.
Qed.

Lemma count_all h r : (forall t, (r <= t)%nat -> nth t h 0 = 0) -> (r <= length h)%nat -> count h r = sum h.
Proof.
  intros Hz Hr. unfold count. rewrite <- (firstn_skipn r h) at 2. rewrite sum_app.
  assert (X : sum (skipn r h) = 0); [|lia].
  assert (Y : forall l, (forall t, nth t l 0 = 0) -> sum l = 0).
  { induction l as [|x l IH]; intros H; [reflexivity|]. unfold sum. cbn [fold_right]. fold (sum l).
    rewrite IH; [pose proof (H 0%nat); cbn [nth] in *; lia|]. intros t. apply (H (S t)). }
  apply Y. intros t. rewrite <- (firstn_skipn r h) in Hz. specialize (Hz (r + t)%nat ltac:(lia)).
  rewrite app_nth2 in Hz by (rewrite firstn_length; lia). rewrite firstn_length, Nat.min_l in Hz by lia.
  replace (r + t - r)%nat with t in Hz by lia. exact Hz.
Qed.

Lemma count_sum (f : nat -> Z) n : forall ps, Forall (fun k => 0 <= k < Z.of_nat n) ps ->
  sum (map (fun t => Z.of_nat (count_occ Z.eq_dec ps (Z.of_nat t)) * f t) (seq 0 n)) = sum (map (fun k => f (Z.to_nat k)) ps).
Proof.
  induction ps as [|k ps IH]; intros F.
  - cbn [count_occ map]. unfold sum. cbn [fold_right]. induction (seq 0 n); cbn [map fold_right]; lia.
  - inversion F as [|? ? Hk F']; subst. unfold sum at 2. cbn [map fold_right]. fold (sum (map (fun k => f (Z.to_nat k)) ps)).
    rewrite <- (IH F'). cbn [count_occ].
    assert (X : forall m s, (s <= Z.to_nat k < s + m)%nat ->
      sum (map (fun t => Z.of_nat (if Z.eq_dec k (Z.of_nat t) then S (count_occ Z.eq_dec ps (Z.of_nat t)) else count_occ Z.eq_dec ps (Z.of_nat t)) * f t) (seq s m))
      = f (Z.to_nat k) + sum (map (fun t => Z.of_nat (count_occ Z.eq_dec ps (Z.of_nat t)) * f t) (seq s m))).
    { assert (N : forall m s, (Z.to_nat k < s)%nat ->
        sum (map (fun t => Z.of_nat (if Z.eq_dec k (Z.of_nat t) then S (count_occ Z.eq_dec ps (Z.of_nat t)) else count_occ Z.eq_dec ps (Z.of_nat t)) * f t) (seq s m))
        = sum (map (fun t => Z.of_nat (count_occ Z.eq_dec ps (Z.of_nat t)) * f t) (seq s m))).
      { induction m as [|m IHm]; intros s Hs; [reflexivity|]. unfold sum in *. cbn [seq map fold_right]. rewrite IHm by lia.
        destruct (Z.eq_dec k (Z.of_nat s)); [lia|reflexivity]. }
      induction m as [|m IHm]; intros s Hs; [lia|]. cbn [seq map]. unfold sum. cbn [fold_right]. fold sum.
      destruct (Z.eq_dec k (Z.of_nat s)) as [Ek|Nk].
      - pose proof (N m (S s) ltac:(lia)) as X. unfold sum in X. rewrite X.
        replace (Z.to_nat k) with s by lia. lia.
      - pose proof (IHm (S s) ltac:(lia)) as X. unfold sum in X. rewrite X. lia. }
    apply X. lia.
Qed.

(** what the choice of lengths needs to know of the values *)
Lemma histogram_setting last values h : small_table last -> (0 < length last)%nat -> nth_error last 0 = Some 0 -> values <> [] ->
  Z.of_nat (length values) < 2 ^ 31 ->
  Forall (fun v => 0 <= v <= List.last last 0) values -> histogram last values = Ok h ->
  setting last h (pools_used h) (Z.of_nat (length values)) /\
  weight last h (pools_used h) <= sum values /\
  weight last h (pools_used h) <= lower last (length last - 1) * Z.of_nat (length values) /\
  (exists v, In v values /\ lower last (pools_used h - 1) <= v).
Proof.
  intros (S1 & S2 & S3 & S4) Hl H0 Hne H31 Hv Hh.
  destruct (histogram_ok last values S2 ltac:(lia)) as (ps & E & Eh & F).
  assert (Hh' : h = map (fun t => Z.of_nat (count_occ Z.eq_dec ps (Z.of_nat t))) (seq 0 (length last))) by congruence.
  assert (Pl : length ps = length values) by (clear -F; induction F; cbn [length]; lia).
  assert (Hnn : Forall (fun x => 0 <= x) h).
  { rewrite Hh'. apply Forall_forall. intros x Hx. apply in_map_iff in Hx as (t & <- & _). lia. }
  assert (Hlen : length h = length last) by (rewrite Hh', map_length, seq_length; auto).
  destruct (pools_used_spec h Hnn) as (U1 & U2 & U3).
  assert (Fk : Forall (fun k => 0 <= k < Z.of_nat (length last)) ps).
  { clear -F. induction F as [|v k l ps (A & (B & _)) F IH]; constructor; auto. }
  assert (Hin : forall k, In k ps -> exists v, In v values /\ first_border last v k).
  { clear -F. induction F as [|v k l ps (A & B) F IH]; intros k' Hk'; [destruct Hk'|].
    destruct Hk' as [<-|Hk']; [exists v; split; [left|]; auto|]. destruct (IH _ Hk') as (v' & Y1 & Y2). exists v'. split; [right|]; auto. }
  assert (Lb : forall v k, 0 <= v -> first_border last v k -> lower last (Z.to_nat k) <= v).
  { intros v k V0 (R & Lo & _). destruct (Z.to_nat k) as [|j] eqn:Ek; [cbn; lia|]. cbn [lower].
    assert (nth j last 0 < v); [|lia]. apply (Lo j); [lia|]. apply nth_error_nth'. lia. }
  assert (Upos : (0 < pools_used h)%nat).
  { destruct ps as [|k ps']; [destruct values; [congruence|cbn [length] in Pl; lia]|].
    assert (Hk : In k (k :: ps')) by (left; auto).
    pose proof (proj1 (Forall_forall _ _) Fk k Hk) as Rk. cbn beta in Rk.
    apply Nat.le_lt_trans with (Z.to_nat k); [lia|]. apply pools_used_lt.
    exists (Z.of_nat (count_occ Z.eq_dec (k :: ps') k)). split.
    - rewrite Hh'. erewrite map_nth_error by (rewrite nth_error_nth' with (d := O) by (rewrite seq_length; lia); reflexivity).
      rewrite seq_nth by lia. cbn [Nat.add]. rewrite Z2Nat.id by lia. auto.
    - apply (count_occ_In Z.eq_dec) in Hk. lia. }
  assert (Hnth : forall t, (t < length last)%nat -> nth t h 0 = Z.of_nat (count_occ Z.eq_dec ps (Z.of_nat t))).
  { intros t Ht. rewrite Hh'. apply nth_error_nth. erewrite map_nth_error by (rewrite nth_error_nth' with (d := O) by (rewrite seq_length; lia); reflexivity).
    rewrite seq_nth by lia. reflexivity. }
  assert (Wt : weight last h (length last) = sum (map (fun k => lower last (Z.to_nat k)) ps)).
  { rewrite <- (count_sum (lower last) (length last) ps Fk). unfold weight. f_equal. apply map_ext_in. intros t Ht.
    apply in_seq in Ht. rewrite Hnth by lia. reflexivity. }
  assert (Wm : weight last h (pools_used h) <= weight last h (length last)).
  { pose proof (weight_group last S2 S4 h (pools_used h) Hnn (length last) ltac:(lia) ltac:(lia)) as X.
    pose proof (count_mono h Hnn (pools_used h) (length last) ltac:(lia)). pose proof (lower_bound last S4 (pools_used h) ltac:(lia)).
    assert (0 <= lower last (pools_used h) * (count h (length last) - count h (pools_used h))) by (apply Z.mul_nonneg_nonneg; lia). lia. }
  split; [|split; [|split]].
  - constructor; auto; try lia.
    rewrite count_all by (auto; lia).
    rewrite Hh'. replace (Z.of_nat (length values)) with (sum (map (fun _ : Z => 1) ps)).
    + rewrite <- (count_sum (fun _ => 1) (length last) ps Fk). f_equal. apply map_ext. intros. lia.
    + rewrite <- Pl. clear. unfold sum. induction ps; cbn [map fold_right length]; lia.
  - rewrite Wt in Wm. apply Z.le_trans with (1 := Wm). clear -F Lb Hv. revert Hv. unfold sum.
    induction F as [|v k l ps (A & Bd) F IH]; intros Hv; cbn [map fold_right]; [lia|]. inversion Hv; subst.
    specialize (IH ltac:(auto)). specialize (Lb v k ltac:(lia) Bd). lia.
  - rewrite Wt in Wm. apply Z.le_trans with (1 := Wm). rewrite <- Pl.
    assert (X : forall k, In k ps -> lower last (Z.to_nat k) <= lower last (length last - 1)).
    { intros k Hk. pose proof (proj1 (Forall_forall _ _) Fk k Hk) as Rk. cbn beta in Rk. apply (lower_mono last S2 S4). lia. }
    clear -X. unfold sum. induction ps as [|k ps IH]; cbn [map fold_right length]; [lia|].
    specialize (IH ltac:(intros; apply X; right; auto)). specialize (X k ltac:(left; auto)). lia.
  - specialize (U3 Upos). rewrite Hnth in U3 by lia.
    assert (Hk : In (Z.of_nat (pools_used h - 1)) ps) by (apply (count_occ_In Z.eq_dec); lia).
    destruct (Hin _ Hk) as (v & Iv & Bv). exists v. split; [auto|].
    pose proof (proj1 (Forall_forall _ _) Hv v Iv) as Rv. cbn beta in Rv. specialize (Lb v _ ltac:(lia) Bv). rewrite Nat2Z.id in Lb. exact Lb.
Qed.

(** ** The two tables *)
Lemma lower1_double r : (1 <= r < 63)%nat -> lower last1 (S r) <= 2 * lower last1 r.
Proof.
  intros H. assert (F : forallb (fun r => lower last1 (S r) <=? 2 * lower last1 r) (seq 1 62) = true) by (vm_compute; reflexivity).
  rewrite forallb_forall in F. specialize (F r ltac:(apply in_seq; lia)). lia.
Qed.

Lemma usable_exp values : values <> [] -> Z.of_nat (length values) <= 40000 -> Forall (fun v => 0 <= v <= 256) values ->
  usable code_lens last0 values.
Proof.
  intros Hne HT Hv h Hh.
  destruct (histogram_setting last0 values h small0) as (Se & _ & W2 & _); auto; try lia.
  - vm_compute; lia.
  - apply code_lens_ok; auto; [apply small0|apply qty0|].
    replace (lower last0 (length last0 - 1)) with 193 in W2 by (vm_compute; reflexivity).
    pose proof (se_used _ _ _ _ Se) as Hu.
    assert (X : 0 <= lower last0 (pools_used h) <= 257).
    { replace 257 with (lower last0 (length last0)) by (vm_compute; reflexivity). destruct small0 as (_ & S2 & _ & S4).
      apply lower_mono; auto. lia. }
    assert (weight last0 h (pools_used h) + Z.of_nat (length values) <= 194 * 40000) by lia.
    apply Z.le_trans with (194 * 40000 * 257); [|lia]. apply Z.mul_le_mono_nonneg; try lia.
    pose proof (weight_group last0 (se_inc _ _ _ _ Se) (se_bnd _ _ _ _ Se) h 0 (se_h _ _ _ _ Se) (pools_used h)
      ltac:(pose proof (se_hlen _ _ _ _ Se); lia) ltac:(lia)) as Y. cbn [lower] in Y. change (weight last0 h 0) with 0 in Y. lia.
Qed.

Lemma usable_zeros values N : values <> [] -> 1 <= N <= 2 ^ 15 -> Forall (fun v => 0 <= v) values ->
  sum values + Z.of_nat (length values) <= N -> usable code_lens last1 values.
Proof.
  intros Hne HN Hv Hs h Hh.
  assert (In_le : forall v, In v values -> v <= sum values).
  { clear -Hv. induction Hv as [|x l Hx Hl IH]; intros v Iv; [destruct Iv|]. unfold sum in *. cbn [fold_right].
    pose proof (sum_nonneg l Hl) as Sn. unfold sum in Sn. destruct Iv as [->|Iv]; [lia|]. specialize (IH v Iv). lia. }
  pose proof (sum_nonneg values Hv) as Sn.
  assert (L1 : (1 <= length values)%nat) by (destruct values; [congruence|cbn [length]; lia]).
  destruct (histogram_setting last1 values h small1) as (Se & W1 & _ & (v & Iv & Lv)); auto; try lia.
  - vm_compute; lia.
  - rewrite Forall_forall in *. intros v Iv. specialize (Hv v Iv). specialize (In_le v Iv).
    replace (List.last last1 0) with (2 ^ 31) by (vm_compute; reflexivity). lia.
  - apply code_lens_ok; auto; [apply small1|apply qty1|].
    pose proof (se_used _ _ _ _ Se) as Hu. specialize (In_le v Iv).
    assert (X : 0 <= lower last1 (pools_used h) <= 2 * N).
    { split; [destruct small1 as (_ & S2 & _ & S4); apply (lower_bound last1 S4); lia|].
      destruct (Nat.eq_dec (pools_used h) 1) as [->|N1]; [change (lower last1 1) with 1; lia|].
      pose proof (lower1_double (pools_used h - 1)) as D. rewrite last1_len in Hu. specialize (D ltac:(lia)).
      replace (S (pools_used h - 1)) with (pools_used h) in D by lia. lia. }
    nia.
Qed.

Lemma tl_zeros_sum fl n : forall idx vals tl lo le, tl_rel fl lo le idx vals tl -> rising lo n idx -> idx <> [] ->
  sum (map e_zeros tl) + Z.of_nat (length tl) < n - lo /\ Forall (fun v => 0 <= v) (map e_zeros tl).
Proof.
  induction idx as [|i idx IH]; intros [|v vals] [|en tl] lo le R Hr Hne; cbn [tl_rel] in R; try contradiction; try congruence.
  cbn [rising] in Hr. destruct Hr as (Hi & Hr). destruct R as (x & s & f & _ & Hx & _ & _ & -> & Hi' & R).
  unfold sum in *. cbn [map fold_right length e_zeros].
  destruct idx as [|j idx].
  - destruct vals; destruct tl; cbn [tl_rel] in R; try contradiction. cbn [map fold_right length]. split; [lia|]. repeat constructor; lia.
  - destruct (IH vals tl i x R Hr ltac:(discriminate)) as (I1 & I2). split; [lia|]. constructor; [lia|auto].
Qed.

Lemma small_usable o tl used : sparse o -> o_rows o * o_cols o <= 2 ^ 15 ->
  timeline (o_frag o) None 127 0 (o_indexes o) (o_values o) = Ok (tl, used) ->
  usable code_lens last0 (map e_exp tl) /\ usable code_lens last1 (map e_zeros tl).
Proof.
  intros [Hfr Hro Hco Hsz Hne Hlen Hidx Hnz] HN E.
  assert (Hfl : 7 <= o_frag o <= 23) by lia.
  destruct (timeline_ok (o_frag o) (o_rows o * o_cols o) Hfl ltac:(lia) (o_indexes o) (o_values o) (-1) None 127 0)
    as (tl' & used' & E' & R & _); auto; try lia.
  assert (X : Ok (tl', used') = Ok (tl, used)) by congruence. inversion X; subst tl' used'. clear X E'.
  pose proof (tl_rel_len _ _ _ _ _ _ R) as Ltl.
  assert (Hi : o_indexes o <> []) by (destruct (o_values o); [congruence|]; destruct (o_indexes o); [discriminate|congruence]).
  destruct (tl_zeros_sum _ _ _ _ _ _ _ R Hidx Hi) as (Z1 & Z2).
  pose proof (tl_rel_range _ _ _ _ _ _ R ltac:(unfold byte; lia) ltac:(lia)) as Rg.
  assert (Tne : tl <> []) by (intros X; subst tl; cbn [length] in Ltl; destruct (o_indexes o); [congruence|discriminate]).
  assert (Tn : forall A (f : entry -> A), map f tl <> []) by (intros; destruct tl; [congruence|discriminate]).
  pose proof (sum_nonneg _ Z2) as Sn.
  split.
  - apply usable_exp; auto.
    + rewrite map_length. lia.
    + rewrite Forall_forall in *. intros v Iv. apply in_map_iff in Iv as (en & <- & Ien). apply Rg in Ien. tauto.
  - apply (usable_zeros _ (o_rows o * o_cols o)); auto.
    + nia.
    + rewrite map_length. lia.
Qed.
