(** * P_SfLens: the second pass of the choice of code lengths *)
Require Import List ZArith Lia Bool ZifyBool.
Import ListNotations.
From Verif Require Import M_Base P_Base M_Archive M_Sf S_Sf P_Sf M_SfCodec S_SfCodec P_SfTable P_SfMerge.
Open Scope Z_scope.

Definition pw2 (q : Z) : Prop := exists a, 0 <= a <= 31 /\ q = 2 ^ a.
Fixpoint sorted_from (c : Z) (l : list Z) : Prop :=
  match l with [] => True | x :: t => c <= x /\ sorted_from x t end.
Definition sum (l : list Z) : Z := fold_right Z.add 0 l.

Lemma shares_cons q l qs ls : shares (q :: qs) (l :: ls) = share q l + shares qs ls.
Proof. reflexivity. Qed.
Lemma share_pos q l : 0 < q -> 0 <= l <= 32 -> 0 < share q l.
Proof. intros. unfold share. assert (0 < 2 ^ (32 - l)) by (apply pow2_pos; lia). nia. Qed.
Lemma share_half q l : 1 <= l <= 32 -> share q (l - 1) = 2 * share q l.
Proof.
  intros. unfold share. replace (32 - (l - 1)) with (1 + (32 - l)) by lia. rewrite pow2_add by lia. change (2 ^ 1) with 2. lia.
Qed.
Lemma shares_nonneg : forall qs ls, Forall (fun q => 0 < q) qs -> Forall (fun l => 0 <= l <= 32) ls -> 0 <= shares qs ls.
Proof.
  induction qs as [|q qs IH]; intros [|l ls] Hq Hl; try (cbn; lia). inversion Hq; inversion Hl; subst.
  rewrite shares_cons. pose proof (share_pos q l ltac:(auto) ltac:(auto)). specialize (IH ls ltac:(auto) ltac:(auto)). lia.
Qed.

Lemma widen_facts : forall qs ls free f ls', widen qs ls free = (f, ls') -> length qs = length ls ->
  Forall (fun q => 0 < q) qs -> Forall (fun l => 0 <= l <= 32) ls -> 0 <= free -> free + shares qs ls <= 2 ^ 32 ->
  length ls' = length ls /\ f + shares qs ls' = free + shares qs ls /\ 0 <= f /\
  Forall2 (fun a b => b = a \/ (1 <= a /\ b = a - 1)) ls ls' /\ sum ls' <= sum ls /\
  (sum ls' = sum ls -> free = 0 \/ Forall2 (fun q l => free < share q l) qs ls).
Proof.
  induction qs as [|q qs IH]; intros [|l ls] free f ls' E Hlen Hq Hl Hf Hk; try discriminate; cbn [widen] in E.
  - inversion E; subst. repeat split; auto; try lia.
  - inversion Hq as [|? ? Hq1 Hq2]; inversion Hl as [|? ? Hl1 Hl2]; subst. rewrite shares_cons in Hk.
    pose proof (share_pos q l Hq1 Hl1) as Sp. pose proof (shares_nonneg qs ls Hq2 Hl2) as Sn.
    cbn [length] in Hlen.
    destruct (Z.eqb_spec free 0) as [F0|F0].
    + inversion E; subst. repeat split; auto; try lia.
      clear. induction (l :: ls); constructor; auto.
    + destruct (Z.leb_spec (share q l) free) as [Sl|Sl].
      * assert (L1 : 1 <= l).
        { destruct (Z.eq_dec l 0) as [->|]; [|lia]. unfold share in *. change (32 - 0) with 32 in *. nia. }
        destruct (widen qs ls (free - share q l)) as [f1 r1] eqn:E1. inversion E; subst.
        destruct (IH ls _ _ _ E1 ltac:(lia) Hq2 Hl2 ltac:(lia) ltac:(lia)) as (A1 & A2 & A3 & A4 & A5 & A6).
        rewrite w8_id by lia. rewrite !shares_cons, share_half by lia. unfold sum in *. cbn [length fold_right].
        repeat split; auto; try lia.
      * destruct (widen qs ls free) as [f1 r1] eqn:E1. inversion E; subst.
        destruct (IH ls _ _ _ E1 ltac:(lia) Hq2 Hl2 ltac:(lia) ltac:(lia)) as (A1 & A2 & A3 & A4 & A5 & A6).
        rewrite !shares_cons. unfold sum in *. cbn [length fold_right]. repeat split; auto; try lia.
        intros X. destruct A6 as [A6|A6]; [lia|auto|]. right. constructor; auto.
Qed.

Lemma widen_sorted : forall qs ls free f ls' q0 l0, widen qs ls free = (f, ls') -> length qs = length ls ->
  sorted_from q0 qs -> 0 < q0 -> sorted_from l0 ls -> Forall (fun l => 0 <= l <= 32) ls -> 0 <= free ->
  free + shares qs ls <= 2 ^ 32 -> 0 <= l0 ->
  sorted_from (l0 - 1) ls' /\ (free < share q0 l0 -> sorted_from l0 ls').
Proof.
  induction qs as [|q qs IH]; intros [|l ls] free f ls' q0 l0 E Hlen Hq Hq0 Hs Hl Hf Hk H0; try discriminate; cbn [widen] in E.
  - inversion E; subst. cbn. auto.
  - cbn [sorted_from] in Hq, Hs. destruct Hq as (Hq1 & Hq2). destruct Hs as (Hs1 & Hs2).
    inversion Hl as [|? ? Hl1 Hl2]; subst. rewrite shares_cons in Hk. cbn [length] in Hlen.
    pose proof (share_pos q l ltac:(lia) Hl1) as Sp.
    assert (Sn : 0 <= shares qs ls).
    { apply shares_nonneg; auto. clear -Hq2 Hq1 Hq0. assert (0 < q) by lia. clear Hq1 Hq0 q0. revert q Hq2 H.
      induction qs as [|x t IH]; intros q H Hp; constructor; cbn [sorted_from] in H; [lia|]. apply (IH x); [apply H|lia]. }
    destruct (Z.eqb_spec free 0) as [F0|F0].
    + inversion E; subst. cbn [sorted_from]. repeat split; auto; lia.
    + destruct (Z.leb_spec (share q l) free) as [Sl|Sl].
      * assert (L1 : 1 <= l).
        { destruct (Z.eq_dec l 0) as [->|]; [|lia]. unfold share in *. change (32 - 0) with 32 in *. nia. }
        destruct (widen qs ls (free - share q l)) as [f1 r1] eqn:E1. inversion E; subst.
        rewrite w8_id by lia.
        destruct (IH ls _ _ _ q l E1 ltac:(lia) Hq2 ltac:(lia) Hs2 Hl2 ltac:(lia) ltac:(lia) ltac:(lia)) as (I1 & _).
        cbn [sorted_from]. split; [split; [lia|auto]|]. intros Hlt. split; [|auto].
        assert (l <> l0); [|lia]. intros ->. unfold share in *.
        assert (0 < 2 ^ (32 - l0)) by (apply pow2_pos; lia). nia.
      * destruct (widen qs ls free) as [f1 r1] eqn:E1. inversion E; subst.
        destruct (IH ls _ _ _ q l E1 ltac:(lia) Hq2 ltac:(lia) Hs2 Hl2 ltac:(lia) ltac:(lia) ltac:(lia)) as (_ & I2).
        cbn [sorted_from]. repeat split; auto; try lia.
Qed.

(** the smallest share divides all the others *)
Lemma share_divides : forall qs ls, length qs = length ls -> qs <> [] -> Forall pw2 qs -> Forall (fun l => 0 <= l <= 32) ls ->
  exists m, 0 <= m /\ (exists k, shares qs ls = k * 2 ^ m) /\
    (forall x, Forall2 (fun q l => x < share q l) qs ls -> x < 2 ^ m) /\ Forall2 (fun q l => 2 ^ m <= share q l) qs ls.
Proof.
  induction qs as [|q qs IH]; intros [|l ls] Hlen Hne Hq Hl; try discriminate; [congruence|].
  inversion Hq as [|? ? (a & Ha & ->) Hq2]; inversion Hl as [|? ? Hl1 Hl2]; subst. cbn [length] in Hlen.
  assert (Es : share (2 ^ a) l = 2 ^ (a + (32 - l))) by (unfold share; rewrite pow2_add by lia; auto).
  destruct qs as [|q qs].
  - destruct ls; [|discriminate]. exists (a + (32 - l)). split; [lia|]. split.
    + exists 1. rewrite shares_cons, Es. unfold shares. cbn [combine map fold_right]. lia.
    + split; [intros x F; inversion F; subst; lia|]. constructor; [lia|constructor].
  - destruct (IH ls ltac:(lia) ltac:(discriminate) Hq2 Hl2) as (m & Hm & (k & Hk) & Hx & Hall).
    destruct (Z.le_gt_cases m (a + (32 - l))) as [C|C].
    + exists m. split; [auto|]. split.
      * exists (2 ^ (a + (32 - l) - m) + k). rewrite shares_cons, Es, Hk.
        rewrite Z.mul_add_distr_r, <- pow2_add by lia. f_equal. f_equal. lia.
      * split; [intros x F; inversion F; subst; apply Hx; auto|].
        constructor; auto. rewrite Es. apply pow2_le. lia.
    + exists (a + (32 - l)). split; [lia|]. split.
      * exists (1 + k * 2 ^ (m - (a + (32 - l)))). rewrite shares_cons, Es, Hk.
        rewrite Z.mul_add_distr_r, <- Z.mul_assoc, <- pow2_add by lia.
        replace (m - (a + (32 - l)) + (a + (32 - l))) with m by lia. lia.
      * split; [intros x F; inversion F; subst; rewrite <- Es; auto|].
        constructor; [lia|]. assert (2 ^ (a + (32 - l)) <= 2 ^ m) by (apply pow2_le; lia).
        clear -Hall H. induction Hall; constructor; auto; lia.
Qed.

Lemma pw2_pos qs : Forall pw2 qs -> Forall (fun q => 0 < q) qs.
Proof. intros H. eapply Forall_impl; [|apply H]. intros q (a & Ha & ->). apply pow2_pos; lia. Qed.

Lemma shares_le_in : forall qs ls m, length qs = length ls -> qs <> [] -> Forall (fun q => 0 < q) qs ->
  Forall (fun l => 0 <= l <= 32) ls -> Forall2 (fun q l => m <= share q l) qs ls -> m <= shares qs ls.
Proof.
  intros [|q qs] [|l ls] m Hlen Hne Hq Hl F; try discriminate; [congruence|].
  inversion Hq; inversion Hl; inversion F; subst. rewrite shares_cons.
  pose proof (shares_nonneg qs ls ltac:(auto) ltac:(auto)). lia.
Qed.

Lemma second_pass_ok : forall fuel qs ls free, length qs = length ls -> qs <> [] -> Forall pw2 qs -> sorted_from 1 qs ->
  sorted_from 0 ls -> Forall (fun l => 0 <= l <= 32) ls -> 0 <= free -> free + shares qs ls = 2 ^ 32 ->
  sum ls < Z.of_nat fuel ->
  exists ls', second_pass fuel qs ls free = Ok ls' /\ length ls' = length ls /\ sorted_from 0 ls' /\
    Forall (fun l => 0 <= l <= 32) ls' /\ shares qs ls' = 2 ^ 32 /\ Forall2 (fun a b => b <= a) ls ls'.
Proof.
  assert (Refl : forall l, Forall2 (fun a b => b <= a) l l) by (induction l; constructor; auto; lia).
  assert (Trans : forall a b c, Forall2 (fun a b => b = a \/ (1 <= a /\ b = a - 1)) a b -> Forall2 (fun a b => b <= a) b c -> Forall2 (fun a b => b <= a) a c).
  { intros a b c H; revert c; induction H; intros c Hc; inversion Hc; subst; constructor; auto; lia. }
  induction fuel as [|fuel IH]; intros qs ls free Hlen Hne Hq Hqs Hls Hl Hf Hk Hfu.
  - exfalso. assert (0 <= sum ls); [|lia]. clear -Hl. unfold sum. induction Hl; cbn [fold_right]; lia.
  - cbn [second_pass]. destruct (Z.ltb_spec 0 free) as [P|P].
    2: { exists ls. assert (free = 0) by lia. repeat split; auto; lia. }
    destruct (widen qs ls free) as [f ls1] eqn:E.
    pose proof (pw2_pos _ Hq) as Hqp.
    destruct (widen_facts _ _ _ _ _ E Hlen Hqp Hl Hf ltac:(lia)) as (A1 & A2 & A3 & A4 & A5 & A6).
    destruct (widen_sorted _ _ _ _ _ 1 0 E Hlen Hqs ltac:(lia) Hls Hl Hf ltac:(lia) ltac:(lia)) as (B1 & _).
    assert (Hl1 : Forall (fun l => 0 <= l <= 32) ls1).
    { clear -A4 Hl. induction A4; inversion Hl; subst; constructor; auto. lia. }
    assert (Hs1 : sorted_from 0 ls1).
    { destruct ls1 as [|x t]; [exact I|]. cbn [sorted_from] in *. inversion Hl1; subst. split; [lia|apply B1]. }
    assert (Hdec : sum ls1 < sum ls).
    { destruct (Z.eq_dec (sum ls1) (sum ls)) as [Eq|]; [exfalso|lia].
      destruct (A6 Eq) as [?|F]; [lia|].
      destruct (share_divides qs ls Hlen Hne Hq Hl) as (m & Hm & (k & Hkm) & Hx & Hall).
      specialize (Hx _ F).
      pose proof (shares_le_in qs ls _ Hlen Hne Hqp Hl Hall) as Hle.
      assert (Hm32 : m <= 32).
      { destruct (Z.le_gt_cases m 32); [auto|]. assert (2 ^ 32 < 2 ^ m) by (apply pow2_lt; lia). lia. }
      assert (E32 : 2 ^ 32 = 2 ^ (32 - m) * 2 ^ m) by (rewrite <- pow2_add by lia; f_equal; lia).
      assert (0 < 2 ^ m) by (apply pow2_pos; lia).
      assert (Fm : free = (2 ^ (32 - m) - k) * 2 ^ m) by (rewrite Z.mul_sub_distr_r, <- E32, <- Hkm; clear -Hk; lia).
      clear -H Fm Hx P. set (X := 2 ^ (32 - m) - k) in *. set (D := 2 ^ m) in *. destruct (Z.le_gt_cases X 0); nia. }
    destruct (IH qs ls1 f ltac:(lia) Hne Hq Hqs Hs1 Hl1 A3 ltac:(lia) ltac:(lia)) as (ls' & E' & C1 & C2 & C3 & C4 & C5).
    exists ls'. repeat split; auto; try congruence. eapply Trans; eauto.
Qed.

(** ** from shares to complete lengths *)
Lemma combine_good last : forall rest pre prev c0 lens, last = pre ++ rest ->
  (forall b, nth_error rest 0 = Some b -> prev < b) -> increasing last -> sorted_from c0 lens -> Forall (fun l => l <= 31) lens ->
  good last (Z.of_nat (length pre)) prev c0 (combine rest lens).
Proof.
  induction rest as [|b rest IH]; intros pre prev c0 lens E Hp Hi Hs Hl; [exact I|].
  destruct lens as [|c lens]; [exact I|]. cbn [combine good sorted_from] in *. inversion Hl; subst.
  rewrite Nat2Z.id. split; [rewrite nth_error_app2, Nat.sub_diag by lia; reflexivity|].
  split; [apply Hp; auto|]. split; [lia|].
  replace (Z.of_nat (length pre) + 1) with (Z.of_nat (length (pre ++ [b]))) by (rewrite app_length; cbn [length]; lia).
  apply IH; auto; try lia.
  - rewrite <- app_assoc. reflexivity.
  - intros b' Hb'. apply (Hi (length pre) (S (length pre))); [lia| |].
    + rewrite nth_error_app2, Nat.sub_diag by lia. reflexivity.
    + rewrite nth_error_app2 by lia. replace (S (length pre) - length pre)%nat with 1%nat by lia. exact Hb'.
  - apply Hs.
Qed.

Lemma kraft_shares : forall rest prev lens, (forall b, In b rest -> 0 <= b <= 2 ^ 31) -> increasing (prev :: rest) -> 0 <= prev ->
  kraft prev (combine rest lens) = shares (firstn (length lens) (diffs (prev :: rest))) lens.
Proof.
  induction rest as [|b rest IH]; intros prev lens Hb Hi H0.
  - destruct lens; reflexivity.
  - destruct lens as [|c lens]; [reflexivity|].
    assert (prev < b) by (apply (Hi 0%nat 1%nat); auto; lia).
    pose proof (Hb b ltac:(left; auto)).
    change (diffs (prev :: b :: rest)) with (w32 (b - prev) :: diffs (b :: rest)).
    cbn [combine kraft length firstn]. rewrite shares_cons. unfold share. rewrite w32_id by lia.
    rewrite IH; auto; try lia.
    + intros x Hx. apply Hb. right; auto.
    + intros i j x y Hij Hx Hy. apply (Hi (S i) (S j)); auto. lia.
Qed.

Lemma complete_from_shares rest lens : let last := 0 :: rest in small_table last ->
  (0 < length lens <= length last)%nat -> sorted_from 0 lens -> Forall (fun l => l <= 31) lens ->
  shares (firstn (length lens) (code_qty last)) lens = 2 ^ 32 -> complete_lens last lens.
Proof.
  intros last (S1 & S2 & S3 & S4) Hl Hs H31 Hsh. split; [auto|]. split.
  - apply (combine_good last last [] (-1) 0 lens); auto. intros b Hb. apply S4 in Hb. lia.
  - destruct lens as [|c lens]; [cbn [length] in Hl; lia|]. unfold last. cbn [combine kraft].
    unfold code_qty in Hsh. cbn [length firstn] in Hsh. rewrite shares_cons in Hsh. unfold share at 1 in Hsh.
    rewrite kraft_shares; auto; try lia. intros b Hb. apply In_nth_error in Hb. destruct Hb as (i & Hi). apply (S4 (S i)). auto.
Qed.
