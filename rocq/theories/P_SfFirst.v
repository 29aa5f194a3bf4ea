(** * P_SfFirst: the first pass of the choice of code lengths *)
Require Import List ZArith Lia Bool ZifyBool Reals.
Import ListNotations.
Require Import Flocq.Core.Core Flocq.IEEE754.BinarySingleNaN.
From Verif Require Import M_Base P_Base M_Archive M_Float P_Float M_Sf S_Sf P_Sf M_SfCodec S_SfCodec P_SfTable P_SfMerge P_SfFloat P_SfLens.
Open Scope Z_scope.

(** the codes and the values of the first [r] pools *)
Definition lower (last : list Z) (r : nat) : Z := match r with O => 0 | S k => nth k last 0 + 1 end.
Definition count (h : list Z) (r : nat) : Z := sum (firstn r h).
Definition weight (last h : list Z) (r : nat) : Z := sum (map (fun t => nth t h 0 * lower last t) (seq 0 r)).

Lemma sum_app a b : sum (a ++ b) = sum a + sum b.
Proof. unfold sum. induction a; cbn [app fold_right]; lia. Qed.
Lemma sum_nonneg l : Forall (fun x => 0 <= x) l -> 0 <= sum l.
Proof. unfold sum. induction 1; cbn [fold_right]; lia. Qed.
Lemma firstn_S {A} (d : A) : forall r l, (r < length l)%nat -> firstn (S r) l = firstn r l ++ [nth r l d].
Proof.
  induction r as [|r IH]; intros [|x l] H; cbn [length] in H; try lia; [reflexivity|].
  change (firstn (S (S r)) (x :: l)) with (x :: firstn (S r) l). rewrite IH by lia. reflexivity.
Qed.
Lemma count_S h r : (r < length h)%nat -> count h (S r) = count h r + nth r h 0.
Proof. intros. unfold count. rewrite (firstn_S 0) by auto. rewrite sum_app. unfold sum. cbn [fold_right]. lia. Qed.
Lemma count_mono h : Forall (fun x => 0 <= x) h -> forall r s, (r <= s <= length h)%nat -> 0 <= count h r <= count h s.
Proof.
  intros Hh r s. induction s as [|s IH]; intros H.
  - replace r with 0%nat by lia. unfold count. cbn. lia.
  - destruct (Nat.eq_dec r (S s)) as [->|].
    + split; [|lia]. apply sum_nonneg. rewrite <- (firstn_skipn (S s) h) in Hh. apply Forall_app in Hh. tauto.
    + rewrite count_S by lia. assert (0 <= nth s h 0).
      { rewrite Forall_forall in Hh. apply Hh. apply nth_In. lia. }
      specialize (IH ltac:(lia)). lia.
Qed.
Lemma weight_S last h r : weight last h (S r) = weight last h r + nth r h 0 * lower last r.
Proof. unfold weight. rewrite seq_S, map_app, sum_app. unfold sum at 2. cbn [map fold_right Nat.add]. lia. Qed.

Section Tables.
Context (last : list Z).
Context (Hinc : increasing last) (Hbnd : forall i a, nth_error last i = Some a -> 0 <= a <= 2 ^ 31).

Lemma lower_step r : (r < length last)%nat -> lower last r < lower last (S r).
Proof.
  intros H. destruct r as [|r].
  - cbn [lower]. destruct last as [|x t] eqn:E; [cbn [length] in H; lia|]. specialize (Hbnd 0%nat x eq_refl). cbn [nth]. lia.
  - cbn [lower]. assert (nth r last 0 < nth (S r) last 0); [|lia].
    apply (Hinc r (S r)); [lia| |]; apply nth_error_nth'; lia.
Qed.
Lemma lower_mono r s : (r <= s <= length last)%nat -> 0 <= lower last r <= lower last s.
Proof.
  induction s as [|s IH]; intros H.
  - replace r with 0%nat by lia. cbn. lia.
  - destruct (Nat.eq_dec r (S s)) as [->|].
    + split; [|lia]. cbn [lower]. pose proof (Hbnd s (nth s last 0) ltac:(apply nth_error_nth'; lia)). lia.
    + specialize (IH ltac:(lia)). pose proof (lower_step s ltac:(lia)). lia.
Qed.
Lemma lower_strict r s : (r < s <= length last)%nat -> lower last r < lower last s.
Proof. intros. pose proof (lower_step r ltac:(lia)). pose proof (lower_mono (S r) s ltac:(lia)). lia. Qed.
Lemma lower_bound r : (r <= length last)%nat -> 0 <= lower last r <= 2 ^ 31 + 1.
Proof.
  intros H. destruct r as [|r]; cbn [lower]; [lia|]. pose proof (Hbnd r (nth r last 0) ltac:(apply nth_error_nth'; lia)). lia.
Qed.

Lemma weight_group h a : Forall (fun x => 0 <= x) h -> forall b, (a <= b <= length h)%nat -> (b <= length last)%nat ->
  lower last a * (count h b - count h a) <= weight last h b - weight last h a.
Proof.
  intros Hh. induction b as [|b IH]; intros H Hb; [replace a with 0%nat by lia; lia|].
  destruct (Nat.eq_dec a (S b)) as [->|]; [lia|]. specialize (IH ltac:(lia) ltac:(lia)).
  rewrite count_S, weight_S by lia. pose proof (lower_mono a b ltac:(lia)).
  assert (0 <= nth b h 0) by (rewrite Forall_forall in Hh; apply Hh, nth_In; lia). nia.
Qed.

Lemma sum_qty (H0 : nth_error last 0 = Some 0) r : (r <= length last)%nat -> sum (firstn r (code_qty last)) = lower last r.
Proof.
  intros Hr. destruct r as [|r]; [reflexivity|].
  unfold code_qty. cbn [firstn]. unfold sum. cbn [fold_right]. fold (sum (firstn r (diffs last))).
  assert (X : forall r l, increasing l -> (forall i a, nth_error l i = Some a -> 0 <= a <= 2 ^ 31) -> (r < length l)%nat ->
    sum (firstn r (diffs l)) = nth r l 0 - nth 0 l 0).
  { clear. induction r as [|r IH]; intros l Hi Hb Hl; [cbn; lia|].
    destruct l as [|x [|y t]]; cbn [length] in Hl; try lia.
    change (diffs (x :: y :: t)) with (w32 (y - x) :: diffs (y :: t)). cbn [firstn]. unfold sum. cbn [fold_right].
    fold (sum (firstn r (diffs (y :: t)))). rewrite IH.
    - cbn [nth]. pose proof (Hi 0%nat 1%nat x y ltac:(lia) eq_refl eq_refl). pose proof (Hb 0%nat x eq_refl). pose proof (Hb 1%nat y eq_refl).
      rewrite w32_id by lia. lia.
    - intros i j a b Hij Ha Hbb. apply (Hi (S i) (S j)); auto. lia.
    - intros i a Ha. apply (Hb (S i)); auto.
    - cbn [length] in *. lia. }
  rewrite X by (auto; lia). cbn [lower]. apply nth_error_nth with (d := 0) in H0. lia.
Qed.
End Tables.

Lemma shares_app : forall l1 qs len k, (length l1 + k <= length qs)%nat ->
  shares qs (l1 ++ repeat len k) = shares qs l1 + share (sum (firstn (length l1 + k) qs) - sum (firstn (length l1) qs)) len.
Proof.
  induction l1 as [|c l1 IH]; intros qs len k H.
  - cbn [app length Nat.add firstn] in *. unfold shares at 2. replace (combine qs []) with (@nil (Z * Z)) by (destruct qs; reflexivity).
    cbn [fold_right]. replace (sum []) with 0 by reflexivity. rewrite Z.sub_0_r, Z.add_0_l.
    revert qs H. induction k as [|k IH]; intros qs H.
    + cbn [repeat firstn]. unfold shares, share, sum. destruct qs; reflexivity.
    + destruct qs as [|q qs]; cbn [length] in H; [lia|]. cbn [repeat firstn]. rewrite shares_cons, IH by lia.
      unfold share, sum. cbn [fold_right]. lia.
  - destruct qs as [|q qs]; cbn [length] in *; [lia|]. cbn [app Nat.add firstn]. rewrite !shares_cons, IH by lia.
    unfold share, sum. cbn [fold_right]. lia.
Qed.

Lemma running_nth : forall h acc t, 0 <= acc -> Forall (fun x => 0 <= x) h -> acc + sum h < 2 ^ 32 -> (t < length h)%nat ->
  nth_error (running acc h) t = Some (acc + count h (S t)).
Proof.
  induction h as [|x h IH]; intros acc t Ha Hh Hs Ht; cbn [length] in Ht; [lia|].
  inversion Hh as [|? ? Hx Hh']; subst. pose proof (sum_nonneg h Hh') as Sn. unfold sum in Hs. cbn [fold_right] in Hs. fold (sum h) in Hs.
  cbn [running]. rewrite w32_id by lia. destruct t as [|t].
  - cbn [nth_error]. unfold count, sum. cbn [firstn fold_right]. f_equal. lia.
  - cbn [nth_error]. rewrite IH by (auto; lia). f_equal. unfold count. cbn [firstn]. unfold sum. cbn [fold_right]. lia.
Qed.

(** ** The pass *)
Record setting (last h : list Z) (used : nat) (T : Z) : Prop := Setting {
  se_inc : increasing last;
  se_bnd : forall i a, nth_error last i = Some a -> 0 <= a <= 2 ^ 31;
  se_0 : nth_error last 0 = Some 0;
  se_used : (0 < used <= length last)%nat;
  se_h : Forall (fun x => 0 <= x) h;
  se_hlen : (used <= length h)%nat;
  se_T : count h used = T;
  se_T31 : T < 2 ^ 31;
  se_top : 0 < nth (used - 1) h 0 }.

Section Pass.
Context (last h : list Z) (used : nat) (T : Z) (Se : setting last h used T).
Let up := running 0 (firstn used h).
Notation B := (lower last).
Notation C := (count h).
Notation W := (weight last h).

Definition chosen (len : Z) (a b : nat) : Prop :=
  (B b - B a) * (2 ^ (32 - len) - 1) * T * 2 ^ 50 <= (2 ^ 32 - (B used - B a)) * (C b - C a) * (2 ^ 50 + 1).

Lemma up_nth t : (t < used)%nat -> rd up t = Ok (C (S t)).
Proof.
  intros Ht. pose proof (se_hlen _ _ _ _ Se). unfold rd, up.
  assert (F : Forall (fun x => 0 <= x) (firstn used h)).
  { pose proof (se_h _ _ _ _ Se) as Fh. rewrite <- (firstn_skipn used h) in Fh. apply Forall_app in Fh. tauto. }
  assert (E : sum (firstn used h) = T) by apply (se_T _ _ _ _ Se).
  pose proof (se_T31 _ _ _ _ Se).
  rewrite running_nth by (auto; try lia; rewrite firstn_length; lia).
  f_equal. unfold count. rewrite firstn_firstn. replace (Nat.min (S t) used) with (S t) by lia. lia.
Qed.
Lemma last_nth' t : (t < used)%nat -> rd last t = Ok (B (S t) - 1).
Proof.
  intros Ht. pose proof (se_used _ _ _ _ Se). unfold rd. rewrite (nth_error_nth' last 0) by lia. cbn [lower]. f_equal. lia.
Qed.

Lemma C_bound r : (r <= used)%nat -> 0 <= C r <= T.
Proof.
  intros. pose proof (se_hlen _ _ _ _ Se). rewrite <- (se_T _ _ _ _ Se). apply count_mono; [apply Se|lia].
Qed.
Lemma C_rest r : (r < used)%nat -> C r < T.
Proof.
  intros. pose proof (se_hlen _ _ _ _ Se) as Hl. pose proof (se_top _ _ _ _ Se) as Ht. rewrite <- (se_T _ _ _ _ Se).
  replace used with (S (used - 1)) by lia. rewrite count_S by lia.
  pose proof (count_mono h (se_h _ _ _ _ Se) r (used - 1) ltac:(lia)). lia.
Qed.
Lemma B_mono r s : (r <= s <= used)%nat -> 0 <= B r <= B s.
Proof. intros. pose proof (se_used _ _ _ _ Se). apply lower_mono; try apply Se. lia. Qed.
Lemma B_bound r : (r <= used)%nat -> 0 <= B r <= 2 ^ 31 + 1.
Proof. intros. pose proof (se_used _ _ _ _ Se). apply lower_bound; try apply Se. lia. Qed.
Lemma T_pos : 1 <= T.
Proof. pose proof (C_rest 0 ltac:(pose proof (se_used _ _ _ _ Se); lia)). unfold count in H. cbn in H. lia. Qed.

Lemma pow_minus len : 0 <= len <= 32 ->
  B2R (f64_sub (pow2d (32 - len)) (f64_of_int 1)) = IZR (2 ^ (32 - len) - 1) /\
  is_finite (f64_sub (pow2d (32 - len)) (f64_of_int 1)) = true /\ 0 <= 2 ^ (32 - len) - 1 < 2 ^ 32.
Proof.
  intros Hl. destruct (pow2d_val (32 - len) ltac:(lia)) as (E1 & F1). destruct (of_int64 1 ltac:(cbn; lia)) as (E2 & F2).
  assert (P : 0 < 2 ^ (32 - len) <= 2 ^ 32) by (split; [apply pow2_pos|apply pow2_le]; lia).
  destruct (sub_int _ _ _ _ E1 F1 E2 F2 ltac:(lia)) as (E & F). repeat split; auto; lia.
Qed.

Section Scan.
Context (len : Z) (a : nat) (free : f64).
Context (Hlen : 0 <= len <= 32) (Ha : (a < used)%nat).
Context (Efree : B2R free = IZR (2 ^ 32 - (B used - B a))) (Ffree : is_finite free = true).

Lemma scan_step t : (a <= t < used)%nat ->
  let q := B (S t) - B a in let p := 2 ^ (32 - len) - 1 in let F := 2 ^ 32 - (B used - B a) in
  let x := f64_div (f64_mul (f64_of_int (w32 (B (S t) - 1 + 1 - B a))) (f64_sub (pow2d (32 - len)) (f64_of_int 1))) free in
  let y := f64_div (f64_of_int (w32 (C (S t) - C a))) (f64_of_int T) in
  (Bleb x y = true -> chosen len a (S t)) /\
  (q * p <= 2 ^ 53 -> q * p * T <= F * (C (S t) - C a) -> Bleb x y = true) /\
  (q * p <= F -> Bltb (f64_of_int 1) x = false).
Proof.
  intros Ht q p F x y.
  pose proof (B_mono a (S t) ltac:(lia)) as Bm. pose proof (B_bound (S t) ltac:(lia)) as Bb. pose proof (B_bound used ltac:(lia)) as Bu.
  pose proof (B_mono a used ltac:(lia)) as Bm'. pose proof (B_bound a ltac:(lia)) as Bba.
  pose proof (C_bound (S t) ltac:(lia)) as Cb. pose proof (se_T31 _ _ _ _ Se) as T31. pose proof T_pos as Tp.
  assert (Cm : 0 <= C a <= C (S t)) by (apply count_mono; [apply Se|pose proof (se_hlen _ _ _ _ Se); lia]).
  assert (Eq : w32 (B (S t) - 1 + 1 - B a) = q) by (rewrite w32_id; unfold q; lia).
  assert (Ec : w32 (C (S t) - C a) = C (S t) - C a) by (rewrite w32_id; lia).
  destruct (pow_minus len Hlen) as (Ep & Fp & Hp). fold p in Ep, Hp.
  destruct (of_int64 q ltac:(unfold q; lia)) as (Eqq & Fq).
  destruct (mul_div_val _ _ _ q p F Eqq Fq Ep Fp Efree Ffree ltac:(unfold q; lia) ltac:(lia) ltac:(unfold F; lia)) as (Ex & Fx).
  destruct (of_int64 (C (S t) - C a) ltac:(lia)) as (Ecc & Fc). destruct (of_int64 T ltac:(lia)) as (ET & FT).
  destruct (div_val _ _ _ T Ecc Fc ET FT ltac:(lia) ltac:(lia)) as (Ey & Fy).
  assert (X : x = f64_div (f64_mul (f64_of_int q) (f64_sub (pow2d (32 - len)) (f64_of_int 1))) free) by (unfold x; rewrite Eq; reflexivity).
  assert (Y : y = f64_div (f64_of_int (C (S t) - C a)) (f64_of_int T)) by (unfold y; rewrite Ec; reflexivity).
  rewrite X, Y. clearbody x y. clear X Y.
  split; [|split].
  - intros H. rewrite leb_val in H by auto. rewrite Ex, Ey in H.
    destruct (Rle_bool_spec (r64 (r64 (IZR (q * p)) / IZR F)) (r64 (IZR (C (S t) - C a) / IZR T))) as [L|]; [|discriminate].
    apply test_true in L; try (unfold q, F in *; lia). unfold chosen. fold q p F. exact L.
  - intros H1 H2. rewrite leb_val by auto. rewrite Ex, Ey. apply Rle_bool_true. apply test_fits; auto; try (unfold F in *; lia).
    split; [|lia]. apply Z.mul_nonneg_nonneg; unfold q; lia.
  - intros H. destruct (of_int64 1 ltac:(cbn; lia)) as (E1 & F1). rewrite ltb_val by auto. rewrite Ex, E1. apply Rlt_bool_false.
    apply no_break; [|unfold F; lia]. split; [|auto]. apply Z.mul_nonneg_nonneg; unfold q; lia.
Qed.

Lemma scan_sound : forall n t next, (a <= t)%nat -> (t + n <= used)%nat -> (a <= next <= used)%nat -> (next = a \/ chosen len a next) ->
  exists next', scan n last up len (B a) (C a) free (f64_of_int T) t next = Ok next' /\ (a <= next' <= used)%nat /\
    (next' = a \/ chosen len a next').
Proof.
  induction n as [|n IH]; intros t next Ht Hn Hnx Hc; [exists next; auto|].
  cbn [scan]. rewrite last_nth' by lia. cbn [bind]. rewrite up_nth by lia. cbn [bind].
  destruct (scan_step t ltac:(lia)) as (S1 & _ & _).
  destruct (Bltb _ _); [exists next; auto|].
  destruct (Bleb _ _); apply IH; auto; lia.
Qed.

Lemma scan_full : forall n t next, (a <= t)%nat -> (t + n = used)%nat -> (n = O -> next = used) ->
  let q := B used - B a in let p := 2 ^ (32 - len) - 1 in let F := 2 ^ 32 - (B used - B a) in
  q * p <= F -> q * p * T <= F * (C used - C a) ->
  scan n last up len (B a) (C a) free (f64_of_int T) t next = Ok used.
Proof.
  intros n t next Ht Hn Hnx q p F H1 H2. revert t next Ht Hn Hnx.
  induction n as [|n IH]; intros t next Ht Hn Hnx; [cbn [scan]; rewrite Hnx; auto|].
  cbn [scan]. rewrite last_nth' by lia. cbn [bind]. rewrite up_nth by lia. cbn [bind].
  destruct (scan_step t ltac:(lia)) as (_ & S2 & S3).
  destruct (pow_minus len Hlen) as (_ & _ & Hp). fold p in S2, S3, Hp. fold F in S2, S3.
  pose proof (B_mono (S t) used ltac:(lia)). pose proof (B_bound used ltac:(lia)). pose proof (B_mono a used ltac:(lia)).
  rewrite S3 by (unfold q in *; nia).
  destruct n as [|n].
  - replace (S t) with used in * by lia. rewrite S2; [|unfold q, F in *; lia|auto]. reflexivity.
  - apply IH; lia.
Qed.
End Scan.

Definition total_share (r : nat) (lens : list Z) : Prop :=
  shares (code_qty last) lens * T * 2 ^ 50 <= (2 ^ 50 + 1) * ((2 ^ 32 - B used) * C r + W r) + B r * T * 2 ^ 50.

Lemma sorted_app : forall l c len k, sorted_from c l -> Forall (fun x => x <= len) l -> c <= len -> sorted_from c (l ++ repeat len k).
Proof.
  induction l as [|x l IH]; intros c len k H F Hc.
  - cbn [app]. clear H. revert c Hc. induction k; intros; cbn [repeat sorted_from]; auto. split; [auto|]. apply IHk. lia.
  - cbn [app sorted_from] in *. destruct H as (Ha & Hb). inversion F; subst. split; [lia|]. apply IH; auto.
Qed.

Lemma qty_len : length (code_qty last) = length last.
Proof.
  pose proof (se_0 _ _ _ _ Se) as H0. unfold code_qty. destruct last as [|x t]; [discriminate|]. cbn [length]. f_equal. clear.
  revert x. induction t as [|y t IH]; intros x; [reflexivity|]. change (diffs (x :: y :: t)) with (w32 (y - x) :: diffs (y :: t)).
  cbn [length]. f_equal. apply IH.
Qed.

Lemma first_pass_ok M : 0 <= M <= 31 -> B used * T <= 2 ^ M ->
  forall fuel len lens free, 0 <= len <= M -> M - len < Z.of_nat fuel -> (length lens < used)%nat ->
  B2R free = IZR (2 ^ 32 - (B used - B (length lens))) -> is_finite free = true ->
  sorted_from 0 lens -> Forall (fun x => 0 <= x < len) lens -> total_share (length lens) lens ->
  exists lens', first_pass fuel last up used (f64_of_int T) len (B (length lens)) (C (length lens)) free lens = Ok lens' /\
    length lens' = used /\ sorted_from 0 lens' /\ Forall (fun x => 0 <= x <= M) lens' /\ total_share used lens'.
Proof.
  intros HM HBT. induction fuel as [|fuel IH]; intros len lens free Hl Hfu Hr Efree Ffree Hs Hle Hts; [lia|].
  cbn [first_pass]. set (a := length lens) in *.
  pose proof (se_used _ _ _ _ Se) as Hu.
  assert (X : exists next, scan (used - a) last up len (B a) (C a) free (f64_of_int T) a a = Ok next /\ (a <= next <= used)%nat /\
    (next = a \/ chosen len a next) /\ (len = M -> next = used)).
  { destruct (Z.eq_dec len M) as [EM|NM].
    - destruct (scan_sound len a free ltac:(lia) Hr Efree Ffree (used - a) a a ltac:(lia) ltac:(lia) ltac:(lia) (or_introl eq_refl))
        as (next & E & R & Cn).
      exists next. repeat split; auto; try lia. intros _.
      assert (E' : scan (used - a) last up len (B a) (C a) free (f64_of_int T) a a = Ok used); [|congruence].
      pose proof (B_mono a used ltac:(lia)) as Bm. pose proof T_pos as Tp. pose proof (C_rest a Hr) as Cr.
      pose proof (se_T _ _ _ _ Se) as ET. pose proof (B_bound used ltac:(lia)) as Bb.
      assert (Bs : B a < B used) by (apply lower_strict; try apply Se; lia).
      assert (P : 2 ^ 32 = 2 ^ M * 2 ^ (32 - M)) by (rewrite <- pow2_add by lia; f_equal; lia).
      assert (Pp : 0 < 2 ^ (32 - M)) by (apply pow2_pos; lia).
      assert (K : (B used - B a) * (2 ^ (32 - len) - 1) * T <= 2 ^ 32 - (B used - B a)).
      { rewrite EM. set (q := B used - B a) in *. set (w := 2 ^ (32 - M)) in *.
        assert (q * T <= 2 ^ M) by (unfold q; nia). assert (q * T * w <= 2 ^ 32) by nia. nia. }
      apply scan_full; auto; try lia.
      + destruct (pow_minus len ltac:(lia)) as (_ & _ & Hp). nia.
      + rewrite ET. nia.
    - destruct (scan_sound len a free ltac:(lia) Hr Efree Ffree (used - a) a a ltac:(lia) ltac:(lia) ltac:(lia) (or_introl eq_refl))
        as (next & E & R & Cn).
      exists next. repeat split; auto; try lia. }
  destruct X as (next & E & R & Cn & HnM). rewrite E. cbn [bind].
  assert (Qs : forall r, (r <= length last)%nat -> sum (firstn r (code_qty last)) = B r) by (intros; apply sum_qty; auto; apply Se).
  set (lens1 := lens ++ repeat len (next - a)).
  assert (L1 : length lens1 = next) by (unfold lens1; rewrite app_length, repeat_length; fold a; lia).
  assert (Hs1 : sorted_from 0 lens1).
  { apply sorted_app; auto; [|lia]. eapply Forall_impl; [|apply Hle]. cbn beta. intros; lia. }
  assert (Hf1 : Forall (fun x => 0 <= x <= len) lens1).
  { apply Forall_app. split; [eapply Forall_impl; [|apply Hle]; cbn beta; intros; lia|].
    apply Forall_forall. intros x Hx. apply repeat_spec in Hx. lia. }
  assert (Hts1 : total_share next lens1).
  { destruct (Nat.eq_dec next a) as [EQ|NQ].
    - unfold lens1. rewrite EQ, Nat.sub_diag. cbn [repeat]. rewrite app_nil_r. exact Hts.
    - destruct Cn as [?|Cn]; [lia|]. unfold total_share, chosen in *. unfold lens1.
      rewrite shares_app by (rewrite qty_len; fold a; lia). fold a. replace (a + (next - a))%nat with next by lia.
      rewrite !Qs by lia. unfold share.
      pose proof (weight_group last (se_inc _ _ _ _ Se) (se_bnd _ _ _ _ Se) h a (se_h _ _ _ _ Se) next
                    ltac:(pose proof (se_hlen _ _ _ _ Se); lia) ltac:(lia)) as Wg.
      set (S0 := shares (code_qty last) lens) in *. set (w := 2 ^ (32 - len)) in *.
      set (Ba := B a) in *. set (Bn := B next) in *. set (Bu := B used) in *. set (Ca := C a) in *. set (Cn' := C next) in *.
      set (Wa := W a) in *. set (Wn := W next) in *.
      clearbody S0 w Ba Bn Bu Ca Cn' Wa Wn.
      assert (Z1 : (2 ^ 50 + 1) * (Ba * (Cn' - Ca)) <= (2 ^ 50 + 1) * (Wn - Wa)) by (apply Z.mul_le_mono_nonneg_l; lia).
      clear -Z1 Cn Hts. lia. }
  destruct (Nat.ltb_spec a next) as [LT|GE].
  - rewrite last_nth' by lia. cbn [bind].
    replace (Z.of_nat used - 1) with (Z.of_nat (used - 1)) by lia.
    assert (Er : rdz last (Z.of_nat (used - 1)) = Ok (B (S (used - 1)) - 1)).
    { unfold rdz. destruct (Z.ltb_spec (Z.of_nat (used - 1)) 0); [lia|]. rewrite Nat2Z.id. apply last_nth'. lia. }
    rewrite Er. cbn [bind]. rewrite up_nth by lia. cbn [bind].
    replace (S (next - 1)) with next by lia. replace (S (used - 1)) with used by lia.
    pose proof (B_bound next ltac:(lia)) as Bn. pose proof (B_bound used ltac:(lia)) as Bu. pose proof (B_mono next used ltac:(lia)) as Bm.
    replace (B next - 1 + 1) with (B next) by lia. replace (B used - 1 + 1) with (B used) by lia.
    rewrite (w32_id (B next)) by lia. rewrite (w32_id (B used - B next)) by lia.
    fold lens1. rewrite L1.
    destruct (Nat.eqb_spec next used) as [->|NE].
    + exists lens1. repeat split; auto. eapply Forall_impl; [|apply Hf1]. cbn beta. intros; lia.
    + assert (len <> M) by (intros X; apply NE; auto).
      destruct (pow2d_val 32 ltac:(lia)) as (E1 & F1). destruct (of_int64 (B used - B next) ltac:(lia)) as (E2 & F2).
      destruct (sub_int _ _ _ _ E1 F1 E2 F2 ltac:(lia)) as (E3 & F3).
      rewrite <- L1 in *. apply IH; auto; try lia.
      eapply Forall_impl; [|apply Hf1]. cbn beta. intros; lia.
  - assert (EQ : next = a) by lia. fold lens1. rewrite L1. destruct (Nat.eqb_spec next used) as [?|NE]; [lia|].
    assert (len <> M) by (intros X; apply NE; auto).
    assert (EL : lens1 = lens) by (unfold lens1; rewrite EQ, Nat.sub_diag; cbn [repeat]; apply app_nil_r). rewrite EL.
    apply IH; auto; try lia. eapply Forall_impl; [|apply Hle]. cbn beta. intros; lia.
Qed.
End Pass.
