(** * P_Sf: proofs about the legacy tables, codes and bit stream. *)
Require Import List ZArith Lia Bool ZifyBool.
Import ListNotations.
From Verif Require Import M_Base P_Base M_Sf S_Sf.
Open Scope Z_scope.

(** ** small arithmetic *)
Lemma w32_id x : 0 <= x < 2 ^ 32 -> w32 x = x.
Proof. intros; unfold w32; apply Z.mod_small; auto. Qed.
Lemma w8_id x : 0 <= x < 256 -> w8 x = x.
Proof. intros; unfold w8; apply Z.mod_small; auto. Qed.
Lemma pow2_pos n : 0 <= n -> 0 < 2 ^ n.
Proof. intros; apply Z.pow_pos_nonneg; lia. Qed.
Lemma pow2_add a b : 0 <= a -> 0 <= b -> 2 ^ (a + b) = 2 ^ a * 2 ^ b.
Proof. intros; apply Z.pow_add_r; auto. Qed.
Lemma pow2_le a b : 0 <= a <= b -> 2 ^ a <= 2 ^ b.
Proof. intros; apply Z.pow_le_mono_r; lia. Qed.
Lemma pow2_lt a b : 0 <= a < b -> 2 ^ a < 2 ^ b.
Proof. intros; apply Z.pow_lt_mono_r; lia. Qed.

Lemma doubles_nth : forall n x i, 0 < x -> x * 2 ^ Z.of_nat n <= 2 ^ 32 -> (i < n)%nat ->
  nth_error (doubles n x) i = Some (x * 2 ^ Z.of_nat i).
Proof.
  induction n; intros x i H0 Hx Hi; [lia|]. destruct i; cbn [doubles nth_error].
  - f_equal. cbn. lia.
  - rewrite Nat2Z.inj_succ, Z.pow_succ_r in Hx by lia.
    assert (0 < 2 ^ Z.of_nat n) by (apply pow2_pos; lia).
    destruct n as [|n']; [lia|].
    assert (1 < 2 ^ Z.of_nat (S n')).
    { rewrite Nat2Z.inj_succ, Z.pow_succ_r by lia.
      assert (0 < 2 ^ Z.of_nat n') by (apply pow2_pos; lia). lia. }
    assert (H2 : 0 <= 2 * x < 2 ^ 32) by nia.
    rewrite (w32_id (2 * x) H2), IHn by (lia || nia).
    f_equal. rewrite Nat2Z.inj_succ, Z.pow_succ_r by lia. lia.
Qed.
Lemma pow2i_ok i : 0 <= i < 32 -> pow2i i = Ok (2 ^ i).
Proof.
  intros Hi. unfold pow2i, rdz, rd. destruct (Z.ltb_spec i 0); [lia|].
  unfold pow2_tab. rewrite doubles_nth by (try (cbn; lia); lia).
  rewrite Z2Nat.id by lia. f_equal. lia.
Qed.

(** ** C51: bisection *)
Fixpoint sumz (l : list Z) : Z := match l with [] => 0 | a :: t => a + sumz t end.

(** every step is at least one and at most one more than the later ones *)
Fixpoint fine (l : list Z) : Prop :=
  match l with [] => True | s :: t => 1 <= s <= 1 + sumz t /\ fine t end.

Lemma rdz_ok {A} (l : list A) i : 0 <= i < Z.of_nat (length l) ->
  exists a, rdz l i = Ok a /\ nth_error l (Z.to_nat i) = Some a.
Proof.
  intros H. unfold rdz, rd. destruct (Z.ltb_spec i 0); [lia|].
  destruct (nth_error l (Z.to_nat i)) eqn:E; [eauto|].
  apply nth_error_None in E. lia.
Qed.

Lemma sumz_nonneg l : fine l -> 0 <= sumz l.
Proof. induction l; cbn; [lia|]. intros [? ?]. specialize (IHl H0). lia. Qed.

Lemma bisect_ok last v : increasing last -> Z.of_nat (length last) <= 255 ->
  forall steps tmp, fine steps -> 0 <= tmp -> tmp + sumz steps < Z.of_nat (length last) ->
  (forall j b, (j < Z.to_nat tmp)%nat -> nth_error last j = Some b -> b < v) ->
  (forall b, nth_error last (Z.to_nat (tmp + sumz steps)) = Some b ->
     v <= b \/ tmp + sumz steps = Z.of_nat (length last) - 1) ->
  exists k, bisect last steps v tmp = Ok k /\ first_border last v k.
Proof.
  intros Hinc Hlen. induction steps as [|s t IH]; intros tmp Hf H0 Hs Hlo Hhi; cbn [bisect sumz] in *.
  - exists tmp. split; [reflexivity|]. rewrite Z.add_0_r in *. unfold first_border. repeat split; auto; lia.
  - destruct Hf as [Hs1 Hf]. pose proof (sumz_nonneg t Hf) as Hn.
    rewrite w8_id by lia.
    destruct (rdz_ok last (s + tmp - 1)) as (b & Hb & Hnth); [lia|]. rewrite Hb. cbn [bind].
    destruct (Z.ltb_spec b v).
    + apply IH; auto; try lia.
      * intros j b' Hj Hb'. destruct (Nat.eq_dec j (Z.to_nat (s + tmp - 1))) as [->|Hne].
        -- rewrite Hnth in Hb'. inversion Hb'; subst; auto.
        -- enough (b' < b) by lia. apply (Hinc j (Z.to_nat (s + tmp - 1))); auto. lia.
      * replace (s + tmp + sumz t) with (tmp + (s + sumz t)) by lia. exact Hhi.
    + apply IH; auto; try lia.
      intros b' Hb'. destruct (Z.eq_dec (s - 1) (sumz t)) as [E|E].
      * replace (Z.to_nat (tmp + sumz t)) with (Z.to_nat (s + tmp - 1)) in Hb' by lia.
        rewrite Hnth in Hb'. inversion Hb'; subst. left; lia.
      * left. enough (b < b') by lia.
        apply (Hinc (Z.to_nat (s + tmp - 1)) (Z.to_nat (tmp + sumz t))); auto. lia.
Qed.


Lemma sumz_app a b : sumz (a ++ b) = sumz a + sumz b.
Proof. induction a; cbn; lia. Qed.
Lemma sumz_rev a : sumz (rev a) = sumz a.
Proof. induction a; cbn; [auto|]. rewrite sumz_app. cbn. lia. Qed.

(** steps in the order they are stored: each one is at most one more than the
    sum of those before *)
Fixpoint coarse (sum : Z) (l : list Z) : Prop :=
  match l with [] => True | s :: t => 1 <= s <= 1 + sum /\ coarse (sum + s) t end.

Lemma fine_rev : forall l acc, fine acc -> coarse (sumz acc) l -> fine (rev l ++ acc).
Proof.
  induction l as [|s t IH]; intros acc Ha Hc; cbn; auto.
  cbn in Hc. destruct Hc as [H1 H2]. rewrite <- app_assoc. cbn.
  apply IH; cbn; auto. replace (s + sumz acc) with (sumz acc + s) by lia. auto.
Qed.

Lemma bisec_steps_ok : forall fuel count k, 0 <= k -> k + Z.of_nat fuel <= 6 -> 2 ^ k < count ->
  count <= 2 ^ (k + Z.of_nat fuel) ->
  exists l, bisec_steps fuel count k = Ok l /\ coarse (2 ^ k - 1) l /\ sumz l = count - 2 ^ k.
Proof.
  induction fuel; intros count k Hk Hf Hlo Hhi.
  - cbn in Hhi. rewrite Z.add_0_r in Hhi. lia.
  - rewrite Nat2Z.inj_succ in *. cbn [bisec_steps].
    rewrite !pow2i_ok by lia. cbn [bind].
    assert (E : 2 ^ (k + 1) = 2 * 2 ^ k) by (rewrite Z.pow_add_r by lia; change (2 ^ 1) with 2; lia).
    assert (0 < 2 ^ k) by (apply pow2_pos; lia).
    destruct (Z.ltb_spec (2 ^ (k + 1)) count).
    + destruct (IHfuel count (k + 1)) as (l & -> & Hc & Hs); try lia.
      { replace (k + 1 + Z.of_nat fuel) with (k + Z.succ (Z.of_nat fuel)) by lia. auto. }
      cbn [bind]. eexists; split; [reflexivity|]. cbn [coarse sumz]. split; [|lia].
      split; [lia|]. replace (2 ^ k - 1 + 2 ^ k) with (2 ^ (k + 1) - 1) by lia. auto.
    + eexists; split; [reflexivity|]. cbn [coarse sumz]. split; [|lia]. split; [lia|auto].
Qed.

Lemma find_pool_ok last v : increasing last -> (1 <= length last <= 64)%nat ->
  exists k, find_pool last v = Ok k /\ first_border last v k.
Proof.
  intros Hinc Hlen. unfold find_pool, set_pool_search.
  destruct (Z.ltb_spec 1 (Z.of_nat (length last))).
  - destruct (bisec_steps_ok 6 (Z.of_nat (length last)) 0) as (l & -> & Hc & Hs); cbn; try lia.
    cbn [bind]. apply bisect_ok; auto; rewrite ?sumz_rev; try (cbn in *; lia).
    + rewrite <- app_nil_r. apply fine_rev; cbn in *; auto.
  - cbn [bind rev]. apply bisect_ok; cbn; auto; try lia.
Qed.

Lemma first_border_unique borders v j k : first_border borders v j -> first_border borders v k -> j = k.
Proof.
  assert (W : forall j k, first_border borders v j -> first_border borders v k -> j < k -> False).
  { clear. intros j k (Hj & Hj1 & Hj2) (Hk & Hk1 & Hk2) L.
    destruct (nth_error borders (Z.to_nat j)) as [b|] eqn:E.
    - specialize (Hk1 (Z.to_nat j) b ltac:(lia) E).
      destruct (Hj2 b eq_refl); lia.
    - apply nth_error_None in E. lia. }
  intros A B. destruct (Z.lt_trichotomy j k) as [L|[L|L]]; auto; exfalso; eauto.
Qed.

Lemma find_pool_is last v k : increasing last -> (1 <= length last <= 64)%nat ->
  first_border last v k -> find_pool last v = Ok k.
Proof.
  intros Hi Hl Hk. destruct (find_pool_ok last v Hi Hl) as (k' & -> & Hk').
  f_equal. eapply first_border_unique; eauto.
Qed.

(** ** the fixed tables *)
Lemma last4_nth i : (i < 32)%nat -> nth_error last4 i = Some (2 ^ Z.of_nat i).
Proof. intros. unfold last4, pow2_tab. rewrite doubles_nth by (try (cbn; lia); auto). f_equal. lia. Qed.
Lemma last4_len : length last4 = 32%nat. Proof. reflexivity. Qed.
Lemma nth_lt {A} (l : list A) i a : nth_error l i = Some a -> (i < length l)%nat.
Proof. intros H. apply nth_error_Some. congruence. Qed.
Lemma last4_inc : increasing last4.
Proof.
  intros i j a b L Ha Hb.
  assert (i < 32)%nat by (apply nth_lt in Ha; rewrite last4_len in Ha; auto).
  assert (j < 32)%nat by (apply nth_lt in Hb; rewrite last4_len in Hb; auto).
  rewrite last4_nth in Ha, Hb by auto. inversion Ha; inversion Hb; subst.
  apply pow2_lt. lia.
Qed.
Lemma last5_len : length last5 = 32%nat. Proof. reflexivity. Qed.
Lemma last5_nth i : (i < 32)%nat -> nth_error last5 i = Some (2 ^ Z.of_nat (S i) - 1).
Proof. intros. do 32 (destruct i as [|i]; [reflexivity|]). lia. Qed.
Lemma last5_inc : increasing last5.
Proof.
  intros i j a b L Ha Hb.
  assert (i < 32)%nat by (apply nth_lt in Ha; rewrite last5_len in Ha; auto).
  assert (j < 32)%nat by (apply nth_lt in Hb; rewrite last5_len in Hb; auto).
  rewrite last5_nth in Ha, Hb by auto. inversion Ha; inversion Hb; subst.
  enough (2 ^ Z.of_nat (S i) < 2 ^ Z.of_nat (S j)) by lia. apply pow2_lt. lia.
Qed.

(** ceil(log2 n) *)
Lemma find4 n b : 0 <= b <= 31 -> n <= 2 ^ b -> (b = 0 \/ 2 ^ (b - 1) < n) -> find_pool last4 n = Ok b.
Proof.
  intros Hb Hn Hlo. apply find_pool_is; [apply last4_inc | rewrite last4_len; lia |].
  unfold first_border. rewrite last4_len. repeat split; try lia.
  - intros j x Hj Hx. rewrite last4_nth in Hx by lia. inversion Hx; subst.
    destruct Hlo as [->|Hlo]; [lia|].
    enough (2 ^ Z.of_nat j <= 2 ^ (b - 1)) by lia. apply pow2_le. lia.
  - intros x Hx. rewrite last4_nth in Hx by lia. inversion Hx; subst.
    rewrite Z2Nat.id by lia. auto.
Qed.
(** floor(log2 n) *)
Lemma find5 n b : 0 <= b <= 31 -> 2 ^ b <= n < 2 ^ (b + 1) -> find_pool last5 n = Ok b.
Proof.
  intros Hb Hn. apply find_pool_is; [apply last5_inc | rewrite last5_len; lia |].
  unfold first_border. rewrite last5_len. repeat split; try lia.
  - intros j x Hj Hx. rewrite last5_nth in Hx by lia. inversion Hx; subst.
    enough (2 ^ Z.of_nat (S j) <= 2 ^ b) by lia. apply pow2_le. lia.
  - intros x Hx. rewrite last5_nth, Nat2Z.inj_succ, Z2Nat.id in Hx by lia.
    change (Z.succ b) with (b + 1) in Hx. left. assert (x = 2 ^ (b + 1) - 1) by congruence. lia.
Qed.

(** ** bit lists *)
Definition b2z (b : bool) : Z := if b then 1 else 0.
Fixpoint val (l : list bool) : Z :=
  match l with [] => 0 | b :: t => b2z b * 2 ^ Z.of_nat (length t) + val t end.

Lemma bits_len n v : length (bits n v) = n.
Proof. induction n; cbn; auto. Qed.
Lemma bits_app a b v : bits (a + b) v = bits a (v / 2 ^ Z.of_nat b) ++ bits b v.
Proof.
  induction a; cbn [Nat.add bits app]; [reflexivity|]. rewrite IHa. f_equal.
  rewrite <- Z.shiftr_div_pow2, Z.shiftr_spec by lia. f_equal. lia.
Qed.
Lemma bits_ext n v w : (forall i, 0 <= i < Z.of_nat n -> Z.testbit v i = Z.testbit w i) -> bits n v = bits n w.
Proof. induction n; intros H; cbn; auto. rewrite H by lia. f_equal. apply IHn. intros; apply H; lia. Qed.
Lemma bits_mod n v k : Z.of_nat n <= k -> bits n (v mod 2 ^ k) = bits n v.
Proof. intros. apply bits_ext. intros. apply Z.mod_pow2_bits_low. lia. Qed.
Lemma bits_mul n v k : 0 <= k -> bits (n + Z.to_nat k) (v * 2 ^ k) = bits n v ++ repeat false (Z.to_nat k).
Proof.
  intros. rewrite bits_app, Z2Nat.id by lia. rewrite Z.div_mul by (pose proof (pow2_pos k H); lia).
  f_equal. pose proof (bits_ext (Z.to_nat k) (v * 2 ^ k) 0) as E. rewrite E.
  - generalize (Z.to_nat k). induction n0; cbn; auto. rewrite Z.testbit_0_l. f_equal; auto.
  - intros i Hi. rewrite Z.testbit_0_l, Z.mul_pow2_bits by lia. apply Z.testbit_neg_r. lia.
Qed.
Lemma val_app a b : val (a ++ b) = val a * 2 ^ Z.of_nat (length b) + val b.
Proof.
  induction a; cbn [app val]; [lia|]. rewrite IHa, app_length, Nat2Z.inj_add, pow2_add by lia. lia.
Qed.
Lemma val_range l : 0 <= val l < 2 ^ Z.of_nat (length l).
Proof.
  induction l as [|a t IH]; cbn [val length]; [cbn; lia|].
  rewrite Nat2Z.inj_succ, Z.pow_succ_r by lia. unfold b2z. destruct a; lia.
Qed.
Lemma val_bits n v : val (bits n v) = v mod 2 ^ Z.of_nat n.
Proof.
  induction n; cbn [bits val]; [rewrite Z.mod_1_r; auto|]. rewrite IHn, bits_len.
  rewrite Nat2Z.inj_succ, Z.pow_succ_r by lia.
  rewrite (Z.mul_comm 2), Z.rem_mul_r by (pose proof (pow2_pos (Z.of_nat n)); lia).
  rewrite <- Z.bit0_mod, <- Z.shiftr_div_pow2, Z.shiftr_spec by lia. cbn [Z.add]. unfold b2z.
  unfold Z.b2z. destruct (Z.testbit v (Z.of_nat n)); lia.
Qed.
Lemma bits_val l : bits (length l) (val l) = l.
Proof.
  induction l as [|a t IH]; cbn [bits val length]; auto. f_equal.
  - rewrite Z.add_comm. pose proof (val_range t).
    rewrite Z.testbit_eqb by lia. rewrite Z.div_add, Z.div_small by (try lia; pose proof (pow2_pos (Z.of_nat (length t))); lia).
    destruct a; reflexivity.
  - transitivity (bits (length t) (val t)); [|exact IH]. apply bits_ext. intros i Hi.
    rewrite <- (Z.mod_pow2_bits_low (_ + _) (Z.of_nat (length t))) by lia.
    rewrite Z.add_comm, Z.mod_add, Z.mod_small by (try apply val_range; pose proof (pow2_pos (Z.of_nat (length t))); lia).
    reflexivity.
Qed.

(** ** reader *)
Definition reader_ok (r : reader) : Prop :=
  0 <= r_free r <= 8 /\ Forall byte (r_data r) /\ (r_nr r < length (r_data r))%nat.
Definition stream (r : reader) : list bool :=
  firstn (Z.to_nat (r_free r)) (bits 8 (nth (r_nr r) (r_data r) 0))
  ++ flat_map (bits 8) (skipn (S (r_nr r)) (r_data r)).

Lemma firstn_bits8 k b : 0 <= k <= 8 -> firstn (Z.to_nat k) (bits 8 b) = bits (Z.to_nat k) (b / 2 ^ (8 - k)).
Proof.
  intros. replace 8%nat with (Z.to_nat k + Z.to_nat (8 - k))%nat by lia.
  rewrite bits_app, firstn_app, bits_len, Nat.sub_diag, Z2Nat.id by lia.
  rewrite firstn_all2 by (rewrite bits_len; lia). cbn [firstn]. apply app_nil_r.
Qed.

Lemma nth_upd_same {A} (l : list A) i a d : (i < length l)%nat -> nth i (upd l i a) d = a.
Proof. revert i; induction l; intros i H; cbn in *; [lia|]. destruct i; cbn; auto. apply IHl; lia. Qed.
Lemma skipn_upd {A} (l : list A) i a : skipn (S i) (upd l i a) = skipn (S i) l.
Proof. revert i; induction l; intros i; cbn [upd]; auto. destruct i; auto. cbn. apply IHl. Qed.
Lemma upd_len {A} (l : list A) i a : length (upd l i a) = length l.
Proof. revert i; induction l; intros i; cbn; auto. destruct i; cbn; auto. Qed.
Lemma Forall_upd {A} (P : A -> Prop) l i a : Forall P l -> P a -> Forall P (upd l i a).
Proof. intros H Ha; revert i; induction H; intros i; cbn; auto. destruct i; constructor; auto. Qed.
Lemma nth_byte l i : Forall byte l -> byte (nth i l 0).
Proof. intros H. destruct (Nat.lt_ge_cases i (length l)).
  - rewrite Forall_forall in H. apply H. apply nth_In; auto.
  - rewrite nth_overflow by lia. unfold byte; lia.
Qed.
Lemma skipn_cons {A} (l : list A) i d : (i < length l)%nat -> skipn i l = nth i l d :: skipn (S i) l.
Proof. revert i; induction l; intros i H; cbn in *; [lia|]. destruct i; auto. apply IHl. lia. Qed.

Lemma shift_stream b k f : 0 <= k <= f -> f <= 8 -> byte b ->
  firstn (Z.to_nat f) (bits 8 b)
  = bits (Z.to_nat k) (b / 2 ^ (8 - k)) ++ firstn (Z.to_nat (f - k)) (bits 8 (w8 (b * 2 ^ k))).
Proof.
  intros Hk Hf Hb.
  rewrite (firstn_bits8 f) by lia. rewrite (firstn_bits8 (f - k)) by lia.
  replace (Z.to_nat f) with (Z.to_nat k + Z.to_nat (f - k))%nat by lia.
  rewrite bits_app. f_equal.
  - f_equal. rewrite Z2Nat.id, Z.div_div, <- pow2_add by (try apply Z.pow_nonzero; try apply pow2_pos; lia).
    f_equal. f_equal. lia.
  - apply bits_ext. intros i Hi. unfold w8.
    rewrite <- !Z.shiftr_div_pow2, !Z.shiftr_spec by lia.
    rewrite Z.mod_pow2_bits_low by lia. rewrite Z.mul_pow2_bits by lia. f_equal. lia.
Qed.

Lemma get_bits_loop_ok : forall fuel r rest acc bs tl,
  0 <= rest -> (Z.to_nat rest < fuel)%nat -> reader_ok r ->
  stream r = bs ++ tl -> length bs = Z.to_nat rest ->
  0 <= acc -> acc * 2 ^ rest + val bs < 2 ^ 32 ->
  exists r', get_bits_loop fuel r rest acc = Ok (acc * 2 ^ rest + val bs, r')
    /\ reader_ok r' /\ stream r' = tl /\ length (r_data r') = length (r_data r).
Proof.
  induction fuel; intros r rest acc bs tl H0 Hf Hok Hs Hl Ha Hv; [lia|]. cbn [get_bits_loop].
  destruct (Z.ltb_spec 0 rest) as [Hpos|Hz].
  2: { assert (rest = 0) by lia; subst rest. destruct bs; [|discriminate].
       exists r. cbn [val]. split; [do 2 f_equal; cbn; lia|auto]. }
  destruct Hok as (Hfree & Hby & Hnr).
  (* normalise the position *)
  set (nr := if r_free r =? 0 then S (r_nr r) else r_nr r).
  set (free := if r_free r =? 0 then 8 else r_free r).
  replace (if r_free r =? 0 then (S (r_nr r), 8) else (r_nr r, r_free r)) with (nr, free)
    by (unfold nr, free; destruct (r_free r =? 0); auto).
  assert (HN : (nr < length (r_data r))%nat /\ 1 <= free <= 8 /\
    stream r = firstn (Z.to_nat free) (bits 8 (nth nr (r_data r) 0)) ++ flat_map (bits 8) (skipn (S nr) (r_data r))).
  { unfold nr, free. destruct (Z.eqb_spec (r_free r) 0) as [E|E].
    - assert (S (r_nr r) < length (r_data r))%nat.
      { destruct (Nat.lt_ge_cases (S (r_nr r)) (length (r_data r))); auto. exfalso.
        unfold stream in Hs. rewrite E in Hs. cbn [Z.to_nat firstn app] in Hs.
        rewrite skipn_all2 in Hs by lia. cbn in Hs. destruct bs; [cbn in Hl; lia|discriminate]. }
      split; [auto|]. split; [lia|]. unfold stream. rewrite E. cbn [Z.to_nat firstn app].
      rewrite (skipn_cons (r_data r) (S (r_nr r)) 0) by auto. cbn [flat_map].
      rewrite firstn_all2 by (rewrite bits_len; lia). reflexivity.
    - split; [auto|]. split; [lia|]. reflexivity. }
  destruct HN as (Hn & Hfr & Hstr). clearbody nr free.
  assert (Hb : byte (nth nr (r_data r) 0)) by (apply nth_byte; auto).
  set (b := nth nr (r_data r) 0) in *.
  assert (Erd : rd (r_data r) nr = Ok b).
  { unfold rd. rewrite (nth_error_nth' _ 0 Hn). reflexivity. }
  cbv beta iota. rewrite Erd. cbn [bind].
  assert (Hvb : 0 <= val bs) by (apply val_range).
  assert (Pr : 0 < 2 ^ rest) by (apply pow2_pos; lia).
  destruct (Z.leb_spec rest free) as [Hle|Hgt].
  - unfold wr. replace (nr <? length (r_data r))%nat with true by (symmetry; apply Nat.ltb_lt; auto).
    cbn [bind].
    rewrite Hstr in Hs. rewrite (shift_stream b rest free) in Hs by (auto; lia).
    rewrite <- app_assoc in Hs.
    assert (Hbs : bs = bits (Z.to_nat rest) (b / 2 ^ (8 - rest)) /\
      tl = firstn (Z.to_nat (free - rest)) (bits 8 (w8 (b * 2 ^ rest))) ++ flat_map (bits 8) (skipn (S nr) (r_data r))).
    { assert (L : length (bits (Z.to_nat rest) (b / 2 ^ (8 - rest))) = length bs) by (rewrite bits_len; lia).
      split.
      - apply (f_equal (firstn (length bs))) in Hs. rewrite !firstn_app, L, Nat.sub_diag in Hs.
        cbn [firstn] in Hs. rewrite !app_nil_r in Hs. rewrite firstn_all in Hs. rewrite <- L, firstn_all in Hs. auto.
      - apply (f_equal (skipn (length bs))) in Hs. rewrite !skipn_app, L, Nat.sub_diag in Hs.
        rewrite skipn_all in Hs. rewrite <- L in Hs at 1. rewrite skipn_all in Hs. cbn [skipn app] in Hs. auto. }
    destruct Hbs as [Eb Et].
    assert (Ev : val bs = b / 2 ^ (8 - rest)).
    { rewrite Eb, val_bits, Z2Nat.id by lia. apply Z.mod_small. split; [apply Z.div_pos; [unfold byte in Hb; lia|apply pow2_pos; lia]|].
      apply Z.div_lt_upper_bound; [apply pow2_pos; lia|]. rewrite <- pow2_add by lia.
      replace (8 - rest + rest) with 8 by lia. exact (proj2 Hb). }
    rewrite Z.shiftl_mul_pow2, Z.shiftr_div_pow2, Z.shiftl_mul_pow2 by lia.
    rewrite <- Ev. rewrite (w32_id (acc * 2 ^ rest)) by nia. rewrite w32_id by nia.
    eexists; split; [reflexivity|]. cbn [r_data r_nr r_free].
    split; [|split; [|apply upd_len]].
    + unfold reader_ok. cbn [r_data r_nr r_free]. split; [lia|]. split; [|rewrite upd_len; auto]. apply Forall_upd; auto.
      unfold byte, w8. apply Z.mod_pos_bound. lia.
    + unfold stream. cbn [r_data r_nr r_free]. rewrite nth_upd_same, skipn_upd by auto. symmetry; auto.
  - (* take the whole byte *)
    rewrite Hstr in Hs. rewrite firstn_bits8 in Hs by lia.
    set (h := bits (Z.to_nat free) (b / 2 ^ (8 - free))) in *.
    assert (Lh : length h = Z.to_nat free) by (apply bits_len).
    assert (Eb : exists bs', bs = h ++ bs' /\ flat_map (bits 8) (skipn (S nr) (r_data r)) = bs' ++ tl).
    { exists (skipn (length h) bs). split.
      - apply (f_equal (firstn (length h))) in Hs. rewrite !firstn_app, Nat.sub_diag in Hs.
        rewrite firstn_all in Hs. cbn [firstn] in Hs. rewrite app_nil_r in Hs.
        replace (length h - length bs)%nat with 0%nat in Hs by lia. cbn [firstn] in Hs. rewrite app_nil_r in Hs.
        rewrite Hs at 1. symmetry. apply firstn_skipn.
      - apply (f_equal (skipn (length h))) in Hs. rewrite !skipn_app, Nat.sub_diag in Hs.
        rewrite skipn_all in Hs. cbn [skipn app] in Hs.
        replace (length h - length bs)%nat with 0%nat in Hs by lia. exact Hs. }
    destruct Eb as (bs' & -> & Et).
    assert (Ev : val h = b / 2 ^ (8 - free)).
    { unfold h. rewrite val_bits, Z2Nat.id by lia. apply Z.mod_small. split; [apply Z.div_pos; [unfold byte in Hb; lia|apply pow2_pos; lia]|].
      apply Z.div_lt_upper_bound; [apply pow2_pos; lia|]. rewrite <- pow2_add by lia.
      replace (8 - free + free) with 8 by lia. exact (proj2 Hb). }
    rewrite app_length, Lh in Hl.
    rewrite val_app in *. assert (El : Z.of_nat (length bs') = rest - free) by lia. rewrite El in *.
    pose proof (val_range bs') as Rb. rewrite El in Rb. pose proof (val_range h) as Rh.
    assert (P1 : 0 < 2 ^ (rest - free)) by (apply pow2_pos; lia).
    assert (P2 : 0 < 2 ^ free) by (apply pow2_pos; lia).
    assert (Epow : 2 ^ rest = 2 ^ free * 2 ^ (rest - free)) by (rewrite <- pow2_add by lia; f_equal; lia).
    rewrite Z.shiftr_div_pow2, Z.shiftl_mul_pow2 by lia. rewrite <- Ev.
    assert (HH : acc * 2 ^ free + val h < 2 ^ 32) by nia.
    rewrite (w32_id (acc * 2 ^ free)) by nia. rewrite w32_id by nia.
    destruct (IHfuel (Reader (r_data r) nr 0) (rest - free) (acc * 2 ^ free + val h) bs' tl) as (r' & E1 & E2 & E3 & E4);
      [lia | lia | split; [cbn; lia|split; cbn; auto] | exact Et | lia | nia | | ].
    + rewrite Epow in Hv. rewrite Z.mul_add_distr_r, <- Z.mul_assoc. lia.
    + rewrite E1. exists r'. split; [|auto]. do 2 f_equal. rewrite Epow. ring.
Qed.

Lemma get_bits_ok r n bs tl : 0 <= n <= 32 -> reader_ok r -> stream r = bs ++ tl -> length bs = Z.to_nat n ->
  exists r', get_bits r n = Ok (val bs, r') /\ reader_ok r' /\ stream r' = tl
    /\ length (r_data r') = length (r_data r).
Proof.
  intros Hn Hr Hs Hl. unfold get_bits. rewrite w8_id by lia.
  destruct (get_bits_loop_ok (S (Z.to_nat n)) r n 0 bs tl) as (r' & E & H); auto; try lia.
  - pose proof (val_range bs) as V. rewrite Hl, Z2Nat.id in V by lia.
    pose proof (pow2_le n 32). lia.
  - exists r'. rewrite E. split; [do 2 f_equal; lia|auto].
Qed.

(** ** writer *)
Definition writer_ok (w : writer) (bs : list bool) : Prop :=
  0 <= w_free w < 8 /\ Forall byte (w_out w) /\
  flat_map (bits 8) (w_out w) = bs ++ repeat false (Z.to_nat (w_free w)).

Lemma flat_bits_len l : length (flat_map (bits 8) l) = (8 * length l)%nat.
Proof. induction l; cbn [flat_map length]; auto. rewrite app_length, bits_len, IHl. lia. Qed.

Lemma app_tail_eq {A} (a b c d : list A) : a ++ b = c ++ d -> length b = length d -> a = c /\ b = d.
Proof.
  intros H L. assert (length a = length c) by (apply (f_equal (@length _)) in H; rewrite !app_length in H; lia).
  revert c H H0; induction a; intros c H H0; destruct c; cbn in *; try lia; auto.
  inversion H; subst. destruct (IHa c); auto; subst; auto.
Qed.
Lemma app_head_eq {A} (a b c d : list A) : a ++ b = c ++ d -> length a = length c -> a = c /\ b = d.
Proof.
  intros H L. apply app_tail_eq; auto. apply (f_equal (@length _)) in H. rewrite !app_length in H. lia.
Qed.

Lemma upd_last {A} (pre : list A) b c : upd (pre ++ [b]) (length (pre ++ [b]) - 1) c = pre ++ [c].
Proof.
  rewrite app_length. cbn [length]. replace (length pre + 1 - 1)%nat with (length pre) by lia.
  induction pre; cbn; auto. f_equal; auto.
Qed.

(** the last byte takes [k] more bits *)
Lemma add_last_ok out bs free k v x : Forall byte out -> 1 <= free <= 8 -> 0 <= k <= free ->
  flat_map (bits 8) out = bs ++ repeat false (Z.to_nat free) -> 0 <= v < 2 ^ k -> x = v * 2 ^ (free - k) ->
  exists out', add_last out x = Ok out' /\ Forall byte out' /\ length out' = length out /\
    flat_map (bits 8) out' = (bs ++ bits (Z.to_nat k) v) ++ repeat false (Z.to_nat (free - k)).
Proof.
  intros Hby Hfr Hk Hs Hv ->.
  destruct (exists_last (l := out)) as (pre & b & ->).
  { intros ->. cbn in Hs. apply (f_equal (@length _)) in Hs. rewrite app_length, repeat_length in Hs. cbn in Hs. lia. }
  unfold add_last, rd, wr.
  assert (Hn : nth_error (pre ++ [b]) (length (pre ++ [b]) - 1) = Some b).
  { rewrite app_length. cbn [length]. replace (length pre + 1 - 1)%nat with (length pre) by lia.
    rewrite nth_error_app2, Nat.sub_diag by lia. reflexivity. }
  rewrite Hn. cbn [bind]. rewrite upd_last.
  replace (_ <? length (pre ++ [b]))%nat with true
    by (symmetry; apply Nat.ltb_lt; rewrite app_length; cbn [length]; lia).
  rewrite flat_map_app in Hs. cbn [flat_map] in Hs. rewrite app_nil_r in Hs.
  apply Forall_app in Hby. destruct Hby as [Hpre Hb]. inversion Hb as [|? ? Hb' _]; subst. clear Hb.
  (* split the last byte *)
  replace 8%nat with (Z.to_nat (8 - free) + Z.to_nat free)%nat in Hs by lia.
  rewrite bits_app, app_assoc in Hs.
  apply app_tail_eq in Hs. 2: { rewrite bits_len, repeat_length. lia. }
  replace (Z.to_nat (8 - free) + Z.to_nat free)%nat with 8%nat in Hs by lia.
  rewrite Z2Nat.id in Hs by lia. destruct Hs as [Hbs Hz].
  set (hb := b / 2 ^ free) in *.
  assert (Pf : 0 < 2 ^ free) by (apply pow2_pos; lia).
  assert (Eb : b = hb * 2 ^ free).
  { assert (b mod 2 ^ free = 0).
    { rewrite <- (Z2Nat.id free) by lia. rewrite <- val_bits, Hz.
      generalize (Z.to_nat free). induction n; cbn; auto. }
    unfold hb. pose proof (Z.div_mod b (2 ^ free)). lia. }
  assert (Hhb : 0 <= hb < 2 ^ (8 - free)).
  { unfold byte in Hb'. split; [apply Z.div_pos; lia|]. apply Z.div_lt_upper_bound; [lia|].
    rewrite <- pow2_add by lia. replace (free + (8 - free)) with 8 by lia. lia. }
  assert (Esum : b + v * 2 ^ (free - k) = (hb * 2 ^ k + v) * 2 ^ (free - k)).
  { rewrite Eb at 1. replace (2 ^ free) with (2 ^ k * 2 ^ (free - k)) by (rewrite <- pow2_add by lia; f_equal; lia). ring. }
  assert (Pk : 0 < 2 ^ k) by (apply pow2_pos; lia).
  assert (Hq : 0 <= hb * 2 ^ k + v < 2 ^ (8 - (free - k))).
  { replace (8 - (free - k)) with (8 - free + k) by lia. rewrite pow2_add by lia. nia. }
  assert (Hr : 0 <= (hb * 2 ^ k + v) * 2 ^ (free - k) < 256).
  { assert (0 < 2 ^ (free - k)) by (apply pow2_pos; lia).
    assert (256 = 2 ^ (8 - (free - k)) * 2 ^ (free - k)) as -> by (rewrite <- pow2_add by lia; replace (8 - (free - k) + (free - k)) with 8 by lia; reflexivity).
    nia. }
  eexists; split; [reflexivity|]. rewrite Esum, w8_id by lia.
  split; [apply Forall_app; split; auto|]. split; [rewrite !app_length; reflexivity|].
  rewrite flat_map_app. cbn [flat_map]. rewrite app_nil_r, <- Hbs, <- !app_assoc. f_equal.
  replace 8%nat with (Z.to_nat (8 - (free - k)) + Z.to_nat (free - k))%nat by lia.
  rewrite bits_mul by lia. rewrite app_assoc. f_equal.
  replace (Z.to_nat (8 - (free - k))) with (Z.to_nat (8 - free) + Z.to_nat k)%nat by lia.
  rewrite bits_app, Z2Nat.id by lia. f_equal.
  - f_equal. rewrite Z.add_comm, Z.div_add, Z.div_small by lia. lia.
  - rewrite <- (bits_mod _ (hb * 2 ^ k + v) k) by lia. f_equal. rewrite Z.add_comm, Z.mod_add, Z.mod_small by lia. auto.
Qed.

Lemma put_code_loop_ok cap : forall fuel w n v bs,
  writer_ok w bs -> 0 <= n <= 32 -> (Z.to_nat n < fuel)%nat -> 0 <= v < 2 ^ n ->
  (length bs + Z.to_nat n <= 8 * cap)%nat ->
  exists w', put_code_loop fuel cap w n v = Ok w' /\ writer_ok w' (bs ++ bits (Z.to_nat n) v).
Proof.
  induction fuel; intros w n v bs Hw Hn Hf Hv Hc; [lia|]. cbn [put_code_loop].
  destruct (Z.ltb_spec 0 n) as [Hp|Hz].
  2: { assert (n = 0) by lia; subst n. exists w. split; auto. cbn [Z.to_nat bits]. rewrite app_nil_r; auto. }
  destruct Hw as (Hfr & Hby & Hs).
  assert (HN : exists w1, (if w_free w =? 0
          then let* _ := guard (length (w_out w) <? cap)%nat in Ok (Writer (w_out w ++ [0]) 8)
          else Ok w) = Ok w1 /\ 1 <= w_free w1 <= 8 /\ Forall byte (w_out w1) /\
          flat_map (bits 8) (w_out w1) = bs ++ repeat false (Z.to_nat (w_free w1))).
  { destruct (Z.eqb_spec (w_free w) 0) as [E|E].
    - rewrite E in Hs. cbn [Z.to_nat repeat] in Hs. rewrite app_nil_r in Hs.
      pose proof (flat_bits_len (w_out w)) as L. rewrite Hs in L.
      unfold guard. destruct (Nat.ltb_spec (length (w_out w)) cap); [|lia]. cbn [bind].
      eexists; split; [reflexivity|]. cbn [w_free w_out]. split; [lia|]. split.
      + apply Forall_app; split; auto. constructor; auto. unfold byte; lia.
      + rewrite flat_map_app, Hs. reflexivity.
    - exists w. split; [auto|]. split; [lia|auto]. }
  destruct HN as (w1 & -> & Hf1 & Hb1 & Hs1). cbn [bind].
  destruct (Z.leb_spec n (w_free w1)) as [Hle|Hgt].
  - destruct (add_last_ok (w_out w1) bs (w_free w1) n v (w32 (Z.shiftl v (w_free w1 - n)))) as (out & E & Ho & _ & Hso); auto; try lia.
    { rewrite Z.shiftl_mul_pow2 by lia. apply w32_id.
      assert (0 < 2 ^ (w_free w1 - n)) by (apply pow2_pos; lia). split; [nia|].
      pose proof (pow2_add n (w_free w1 - n) ltac:(lia) ltac:(lia)) as EP.
      replace (n + (w_free w1 - n)) with (w_free w1) in EP by lia.
      pose proof (pow2_lt (w_free w1) 32). nia. }
    rewrite E. cbn [bind]. eexists; split; [reflexivity|]. unfold writer_ok. cbn [w_free w_out].
    split; [lia|]. auto.
  - set (f := w_free w1) in *.
    assert (Pd : 0 < 2 ^ (n - f)) by (apply pow2_pos; lia).
    destruct (add_last_ok (w_out w1) bs f f (v / 2 ^ (n - f)) (Z.shiftr v (n - f))) as (out & E & Ho & _ & Hso); auto; try lia.
    { split; [apply Z.div_pos; lia|]. apply Z.div_lt_upper_bound; [lia|]. rewrite <- pow2_add by lia.
      replace (n - f + f) with n by lia. lia. }
    { rewrite Z.shiftr_div_pow2, Z.sub_diag by lia. cbn. lia. }
    rewrite E. cbn [bind]. rewrite pow2i_ok by lia. cbn [bind].
    rewrite Z.sub_diag in Hso.
    destruct (IHfuel (Writer out 0) (n - f) (v mod 2 ^ (n - f)) (bs ++ bits (Z.to_nat f) (v / 2 ^ (n - f)))) as (w' & E' & Hw'); try lia.
    + unfold writer_ok. cbn [w_free w_out]. split; [lia|]. auto.
    + apply Z.mod_pos_bound. auto.
    + rewrite app_length, bits_len. lia.
    + exists w'. split; auto. rewrite <- app_assoc in Hw'. rewrite bits_mod in Hw' by lia.
      replace (Z.to_nat n) with (Z.to_nat f + Z.to_nat (n - f))%nat by lia.
      rewrite bits_app, Z2Nat.id by lia. auto.
Qed.

Definition code_bits (c : Z * Z) : list bool := bits (Z.to_nat (fst c)) (snd c).
Definition codes_bits (l : list (Z * Z)) : list bool := flat_map code_bits l.

Lemma put_code_ok cap w c bs : writer_ok w bs -> is_code c -> (length bs + Z.to_nat (fst c) <= 8 * cap)%nat ->
  exists w', put_code cap w c = Ok w' /\ writer_ok w' (bs ++ code_bits c).
Proof. intros Hw [H1 H2] Hc. unfold put_code. apply put_code_loop_ok; auto; lia. Qed.

Lemma total_bits_len l : Forall is_code l -> total_bits l = Z.of_nat (length (codes_bits l)) /\ 0 <= total_bits l.
Proof.
  induction 1 as [|c l [H _] _ IH]; cbn [total_bits fold_right codes_bits flat_map]; [split; [reflexivity|lia]|].
  rewrite app_length. unfold code_bits at 1. rewrite bits_len. unfold total_bits, codes_bits in IH. lia.
Qed.

Lemma put_codes_ok cap : forall l w bs, writer_ok w bs -> Forall is_code l ->
  (length bs + length (codes_bits l) <= 8 * cap)%nat ->
  exists w', put_codes cap w l = Ok w' /\ writer_ok w' (bs ++ codes_bits l).
Proof.
  induction l as [|c l IH]; intros w bs Hw Hl Hc; cbn [put_codes].
  - exists w. split; auto. cbn. rewrite app_nil_r; auto.
  - inversion Hl as [|? ? Hc1 Hl1]; subst. cbn [codes_bits flat_map] in *. rewrite app_length in Hc.
    destruct (put_code_ok cap w c bs) as (w1 & -> & Hw1); auto.
    { unfold code_bits in Hc at 1. rewrite bits_len in Hc. lia. }
    cbn [bind]. destruct (IH w1 (bs ++ code_bits c)) as (w2 & -> & Hw2); auto.
    { rewrite app_length. unfold codes_bits. lia. }
    exists w2. split; auto. rewrite app_assoc; auto.
Qed.

Lemma empty_ok : writer_ok empty_writer [].
Proof. unfold writer_ok, empty_writer; cbn. repeat split; auto; lia. Qed.

(** the bytes written, followed by anything, read as the codes *)
Lemma start_stream w bs tail : writer_ok w bs -> Forall byte tail -> w_out w ++ tail <> [] ->
  reader_ok (reader_at_start (w_out w ++ tail)) /\
  exists rest, stream (reader_at_start (w_out w ++ tail)) = bs ++ rest.
Proof.
  intros (Hf & Hb & Hs) Ht Hne.
  assert (Hall : Forall byte (w_out w ++ tail)) by (apply Forall_app; auto).
  split.
  - unfold reader_ok, reader_at_start; cbn [r_free r_data r_nr]. split; [lia|]. split; auto.
    destruct (w_out w ++ tail); [congruence|cbn; lia].
  - unfold stream, reader_at_start; cbn [r_free r_data r_nr].
    exists (repeat false (Z.to_nat (w_free w)) ++ flat_map (bits 8) tail).
    rewrite app_assoc, <- Hs, <- flat_map_app.
    destruct (w_out w ++ tail) as [|b t]; [congruence|]. cbn [nth skipn flat_map]. f_equal.
Qed.

Lemma val_code c : is_code c -> val (code_bits c) = snd c.
Proof.
  intros [H1 H2]. unfold code_bits. rewrite val_bits, Z2Nat.id by lia. apply Z.mod_small. auto.
Qed.

Lemma get_code r c tl : is_code c -> reader_ok r -> stream r = code_bits c ++ tl ->
  exists r', get_bits r (fst c) = Ok (snd c, r') /\ reader_ok r' /\ stream r' = tl
    /\ length (r_data r') = length (r_data r).
Proof.
  intros Hc Hr Hs. destruct (get_bits_ok r (fst c) (code_bits c) tl) as (r' & E & H); auto.
  - destruct Hc; lia.
  - apply bits_len.
  - exists r'. rewrite E, val_code by auto. auto.
Qed.

Lemma get_all_ok : forall l r tl, Forall is_code l -> reader_ok r -> stream r = codes_bits l ++ tl ->
  exists r', get_all r (map fst l) = Ok (map snd l, r') /\ reader_ok r' /\ stream r' = tl
    /\ length (r_data r') = length (r_data r).
Proof.
  induction l as [|c l IH]; intros r tl Hl Hr Hs; cbn [map get_all].
  - exists r; auto.
  - inversion Hl as [|? ? Hc Hl1]; subst. cbn [codes_bits flat_map] in Hs. rewrite <- app_assoc in Hs.
    destruct (get_code r c _ Hc Hr Hs) as (r1 & -> & Hr1 & Hs1 & L1). cbn [bind].
    destruct (IH r1 tl Hl1 Hr1 Hs1) as (r2 & -> & Hr2 & Hs2 & L2). cbn [bind].
    exists r2. repeat split; auto; try apply Hr2. congruence.
Qed.

(** ** C49: the integer code *)
Lemma get_part r k v w tl : 0 <= k <= 32 -> reader_ok r -> 0 <= w < 2 ^ k ->
  bits (Z.to_nat k) v = bits (Z.to_nat k) w -> stream r = bits (Z.to_nat k) v ++ tl ->
  exists r', get_bits r k = Ok (w, r') /\ reader_ok r' /\ stream r' = tl
    /\ length (r_data r') = length (r_data r).
Proof.
  intros Hk Hr Hw E Hs. rewrite E in Hs.
  apply (get_code r (k, w) tl); auto. split; auto.
Qed.

Lemma nine_seven n sel : 1 <= n <= 2 ^ 31 -> 0 <= sel < n ->
  exists c, seven_of_nine sel n = Ok c /\ is_code c /\ fst c <= 31 /\
    forall r tl, reader_ok r -> stream r = code_bits c ++ tl ->
      exists r', nine_of_seven r n = Ok (sel, r') /\ reader_ok r' /\ stream r' = tl
        /\ length (r_data r') = length (r_data r).
Proof.
  intros Hn Hsel. unfold seven_of_nine, nine_of_seven.
  set (b := Z.log2_up n).
  assert (Hb0 : 0 <= b) by apply Z.log2_up_nonneg.
  assert (Hb31 : b <= 31).
  { unfold b. replace 31 with (Z.log2_up (2 ^ 31)) by reflexivity. apply Z.log2_up_le_mono. lia. }
  assert (Hbn : n <= 2 ^ b).
  { destruct (Z.eq_dec n 1) as [->|]; [unfold b; cbn; lia|]. apply Z.log2_up_spec; lia. }
  assert (Hbl : b = 0 \/ 2 ^ (b - 1) < n).
  { destruct (Z.eq_dec n 1) as [->|]; [left; reflexivity|]. right. unfold b.
    apply (Z.log2_up_spec n). lia. }
  rewrite (find4 n b) by (auto; lia). cbn [bind]. rewrite pow2i_ok by lia. cbn [bind].
  clearbody b.
  assert (P31 : 2 ^ b <= 2 ^ 31) by (apply pow2_le; lia).
  assert (E31 : 2 ^ 31 = 2147483648) by reflexivity. assert (E32 : 2 ^ 32 = 4294967296) by reflexivity.
  rewrite (w32_id (2 ^ b - n + 1)) by lia. set (mm := 2 ^ b - n + 1).
  destruct (Z.ltb_spec 1 mm) as [Hmm|Hmm]; destruct (Z.eqb_spec mm 1) as [Em|Em]; try (unfold mm in *; lia).
  2: { exists (b, sel). split; [reflexivity|].
       assert (C : is_code (b, sel)) by (split; cbn [fst snd]; unfold mm in *; lia).
       split; [auto|]. split; [cbn; lia|]. intros r tl Hr Hs. apply (get_code r (b, sel)); auto. }
  destruct Hbl as [->|Hbl]; [exfalso; unfold mm in *; change (2 ^ 0) with 1 in *; lia|].
  assert (Hb1 : 1 <= b). { destruct (Z.eq_dec b 0) as [->|]; [exfalso; unfold mm in *; change (2 ^ 0) with 1 in *; lia|lia]. }
  assert (Eb : 2 ^ b = 2 * 2 ^ (b - 1)) by (rewrite <- Z.pow_succ_r by lia; f_equal; lia).
  set (z := Z.log2 mm).
  assert (Hz : 2 ^ z <= mm < 2 ^ (z + 1)) by (apply Z.log2_spec; lia).
  assert (Hz1 : 1 <= z) by (unfold z; replace 1 with (Z.log2 2) by reflexivity; apply Z.log2_le_mono; lia).
  assert (Hzb : z <= b - 1).
  { apply (Z.pow_le_mono_r_iff 2); try (unfold mm in *; lia). }
  rewrite (find5 mm z) by (auto; lia). cbn [bind]. clearbody z.
  assert (Ez : 2 ^ z = 2 * 2 ^ (z - 1)) by (rewrite <- Z.pow_succ_r by lia; f_equal; lia).
  assert (Pz : 0 < 2 ^ (z - 1)) by (apply pow2_pos; lia).
  assert (Ebz : 2 ^ (b - 1) = 2 ^ (b - z) * 2 ^ (z - 1)) by (rewrite <- pow2_add by lia; f_equal; lia).
  assert (Pbz : 0 < 2 ^ (b - z)) by (apply pow2_pos; lia).
  destruct (Z.ltb_spec 0 sel) as [Hp|Hz0].
  2: { assert (sel = 0) by lia; subst sel. rewrite w8_id by lia. exists (b - z, 0). split; [reflexivity|].
       assert (C : is_code (b - z, 0)) by (split; cbn [fst snd]; lia).
       split; [auto|]. split; [cbn; lia|]. intros r tl Hr Hs.
       destruct (get_code r (b - z, 0) tl C Hr Hs) as (r1 & E1 & H1). cbn [fst snd] in E1. rewrite E1. cbn [bind].
       exists r1. auto. }
  rewrite pow2i_ok by lia. cbn [bind]. rewrite (w32_id (mm - 2 ^ z)) by (unfold mm in *; lia).
  rewrite pow2i_ok by lia. cbn [bind].
  destruct (Z.leb_spec sel (mm - 2 ^ z)) as [Hsh|Hlg].
  - (* one bit less *)
    rewrite w8_id by lia. set (C := sel + (2 ^ (z - 1) - 1)).
    assert (HC : 2 ^ (z - 1) <= C < 2 ^ (b - 1)) by (unfold C, mm in *; lia).
    rewrite w32_id by (unfold C, mm in *; lia). exists (b - 1, C). split; [reflexivity|].
    split; [split; cbn [fst snd]; lia|]. split; [cbn; lia|]. intros r tl Hr Hs.
    unfold code_bits in Hs. cbn [fst snd] in Hs.
    replace (Z.to_nat (b - 1)) with (Z.to_nat (b - z) + Z.to_nat (z - 1))%nat in Hs by lia.
    rewrite bits_app, <- app_assoc, Z2Nat.id in Hs by lia.
    assert (Hq : 1 <= C / 2 ^ (z - 1) < 2 ^ (b - z)).
    { split; [apply Z.div_le_lower_bound; lia|]. apply Z.div_lt_upper_bound; lia. }
    destruct (get_part r (b - z) (C / 2 ^ (z - 1)) (C / 2 ^ (z - 1)) _ ltac:(lia) Hr ltac:(lia) eq_refl Hs) as (r1 & -> & Hr1 & Hs1 & L1).
    cbn [bind]. destruct (Z.ltb_spec 0 (C / 2 ^ (z - 1))); [|lia].
    pose proof (Z.mod_pos_bound C (2 ^ (z - 1)) Pz) as Hmod.
    destruct (get_part r1 (z - 1) C (C mod 2 ^ (z - 1)) _ ltac:(lia) Hr1 ltac:(lia) ltac:(symmetry; apply bits_mod; lia) Hs1) as (r2 & -> & Hr2 & Hs2 & L2).
    cbn [bind]. rewrite Z.shiftl_mul_pow2 by lia.
    pose proof (Z.div_mod C (2 ^ (z - 1)) ltac:(lia)) as DM.
    rewrite (w32_id (C / 2 ^ (z - 1) * 2 ^ (z - 1))) by lia.
    replace (C / 2 ^ (z - 1) * 2 ^ (z - 1) + C mod 2 ^ (z - 1)) with C by lia.
    rewrite (w32_id C) by lia.
    replace (C + 1 - 2 ^ (z - 1)) with sel by (unfold C; lia). rewrite (w32_id sel) by lia.
    destruct (Z.leb_spec sel (mm - 2 ^ z)); [|lia]. exists r2. repeat split; auto; try apply Hr2. congruence.
  - set (C := sel + (mm - 1)).
    assert (HC : mm <= C < 2 ^ b) by (unfold C, mm in *; lia).
    assert (HC2 : 2 * mm - 2 ^ z <= C) by (unfold C, mm in *; lia).
    rewrite w32_id by (unfold C, mm in *; lia). exists (b, C). split; [reflexivity|].
    split; [split; cbn [fst snd]; unfold mm in *; lia|]. split; [cbn; lia|]. intros r tl Hr Hs.
    unfold code_bits in Hs. cbn [fst snd] in Hs.
    replace (Z.to_nat b) with (Z.to_nat (b - z) + (Z.to_nat (z - 1) + 1))%nat in Hs by lia.
    rewrite bits_app, bits_app, <- !app_assoc in Hs. change (2 ^ Z.of_nat 1) with 2 in Hs.
    replace (Z.of_nat (Z.to_nat (z - 1) + 1)) with z in Hs by lia.
    assert (Hq : 1 <= C / 2 ^ z < 2 ^ (b - z)).
    { split; [apply Z.div_le_lower_bound; lia|]. apply Z.div_lt_upper_bound; [lia|].
      rewrite <- pow2_add by lia. replace (z + (b - z)) with b by lia. lia. }
    destruct (get_part r (b - z) (C / 2 ^ z) (C / 2 ^ z) _ ltac:(lia) Hr ltac:(lia) eq_refl Hs) as (r1 & -> & Hr1 & Hs1 & L1).
    cbn [bind]. destruct (Z.ltb_spec 0 (C / 2 ^ z)); [|lia].
    pose proof (Z.mod_pos_bound (C / 2) (2 ^ (z - 1)) Pz) as Hmod.
    destruct (get_part r1 (z - 1) (C / 2) ((C / 2) mod 2 ^ (z - 1)) _ ltac:(lia) Hr1 ltac:(lia) ltac:(symmetry; apply bits_mod; lia) Hs1) as (r2 & -> & Hr2 & Hs2 & L2).
    cbn [bind]. rewrite Z.shiftl_mul_pow2 by lia.
    assert (DD : C / 2 ^ z = C / 2 / 2 ^ (z - 1)) by (rewrite Z.div_div by lia; f_equal; lia).
    rewrite DD. pose proof (Z.div_mod (C / 2) (2 ^ (z - 1)) ltac:(lia)) as DM.
    assert (HD : 0 <= C / 2 < 2 ^ 31).
    { split; [apply Z.div_pos; lia|]. apply Z.div_lt_upper_bound; lia. }
    rewrite (w32_id (C / 2 / 2 ^ (z - 1) * 2 ^ (z - 1))) by (split; [|lia]; apply Z.mul_nonneg_nonneg; [apply Z.div_pos|]; lia).
    replace (C / 2 / 2 ^ (z - 1) * 2 ^ (z - 1) + C / 2 mod 2 ^ (z - 1)) with (C / 2) by lia.
    rewrite (w32_id (C / 2)) by lia.
    assert (HDl : mm - 2 ^ (z - 1) <= C / 2) by (apply Z.div_le_lower_bound; lia).
    rewrite (w32_id (C / 2 + 1 - 2 ^ (z - 1))) by lia.
    destruct (Z.leb_spec (C / 2 + 1 - 2 ^ (z - 1)) (mm - 2 ^ z)); [lia|].
    pose proof (Z.mod_pos_bound C 2 ltac:(lia)) as Hm2.
    assert (E1 : bits (Z.to_nat 1) C = bits (Z.to_nat 1) (C mod 2)).
    { symmetry. change 2 with (2 ^ 1). apply bits_mod. cbn; lia. }
    destruct (get_part r2 1 C (C mod 2) tl ltac:(lia) Hr2 Hm2 E1 Hs2) as (r3 & -> & Hr3 & Hs3 & L3).
    cbn [bind]. exists r3. rewrite Z.shiftl_mul_pow2 by lia. change (2 ^ 1) with 2.
    pose proof (Z.div_mod C 2 ltac:(lia)) as DM2.
    rewrite (w32_id (C / 2 * 2)) by lia. replace (C / 2 * 2 + C mod 2 - mm + 1) with sel by (unfold C in *; lia).
    rewrite w32_id by lia. repeat split; auto; try apply Hr3. congruence.
Qed.

(** ** C52 *)
Lemma exp_jump_byte last e : byte last -> byte e -> byte (exp_jump last e).
Proof. intros. unfold exp_jump, byte, w8. destruct (last <=? e); apply Z.mod_pos_bound; lia. Qed.
Lemma exp_inverse last e : byte last -> byte e -> exp_unjump last (exp_jump last e) = e.
Proof.
  unfold byte. intros Hl He. unfold exp_jump.
  destruct (Z.leb_spec last e) as [L|L].
  - destruct (Z.ltb_spec last (e - last)) as [M|M]; rewrite w8_id by lia; unfold exp_unjump.
    + destruct (Z.ltb_spec last 128); [|lia].
      destruct (Z.leb_spec (e - last + last) (2 * last)); lia.
    + replace (e - last + (e - last)) with (2 * (e - last)) by lia.
      replace (2 * (e - last) mod 2 =? 0) with true
        by (symmetry; apply Z.eqb_eq; rewrite Z.mul_comm; apply Z.mod_mul; lia).
      replace (2 * (e - last) / 2) with (e - last) by (rewrite Z.mul_comm, Z.div_mul; lia).
      rewrite w8_id by lia.
      destruct (Z.ltb_spec last 128); [destruct (Z.leb_spec (2 * (e - last)) (2 * last)) | destruct (Z.leb_spec (2 * (e - last)) (2 * (255 - last)))]; lia.
  - destruct (Z.ltb_spec (255 - last) (last - e)) as [M|M]; rewrite w8_id by lia; unfold exp_unjump.
    + destruct (Z.ltb_spec last 128); [lia|].
      destruct (Z.leb_spec (last - e + (255 - last)) (2 * (255 - last))); [lia|].
      rewrite w8_id by lia. lia.
    + replace (last - e + (last - e - 1)) with (1 + (last - e - 1) * 2) by lia.
      assert ((1 + (last - e - 1) * 2) mod 2 = 1) as -> by (rewrite Z.mod_add by lia; reflexivity).
      cbn [Z.eqb].
      assert ((1 + (last - e - 1) * 2 + 1) / 2 = last - e) as ->.
      { replace (1 + (last - e - 1) * 2 + 1) with ((last - e) * 2) by lia. apply Z.div_mul. lia. }
      rewrite w8_id by lia.
      destruct (Z.ltb_spec last 128); [destruct (Z.leb_spec (1 + (last - e - 1) * 2) (2 * last)) | destruct (Z.leb_spec (1 + (last - e - 1) * 2) (2 * (255 - last)))]; lia.
Qed.
Lemma exps_inverse : forall l last, byte last -> Forall byte l -> exp_unjumps last (exp_jumps last l) = l.
Proof.
  induction l as [|e t IH]; intros last Hl H; cbn [exp_jumps exp_unjumps]; auto.
  inversion H; subst. rewrite exp_inverse by auto. f_equal. auto.
Qed.

(** ** the fixed tables are increasing; logarithms *)
Lemma find_logs n : 1 <= n <= 2 ^ 31 ->
  find_pool last4 n = Ok (Z.log2_up n) /\ find_pool last5 n = Ok (Z.log2 n).
Proof.
  intros Hn. split.
  - apply find4.
    + split; [apply Z.log2_up_nonneg|]. replace 31 with (Z.log2_up (2 ^ 31)) by reflexivity. apply Z.log2_up_le_mono. lia.
    + destruct (Z.eq_dec n 1) as [->|]; [cbn; lia|]. apply Z.log2_up_spec; lia.
    + destruct (Z.eq_dec n 1) as [->|]; [left; reflexivity|]. right. apply (Z.log2_up_spec n). lia.
  - apply find5.
    + split; [apply Z.log2_nonneg|]. replace 31 with (Z.log2 (2 ^ 31)) by reflexivity. apply Z.log2_le_mono. lia.
    + apply Z.log2_spec. lia.
Qed.

Fixpoint incb (l : list Z) : bool :=
  match l with a :: ((b :: _) as t) => (a <? b) && incb t | _ => true end.
Lemma incb_ok l : incb l = true -> increasing l.
Proof.
  intros H i j a b L Ha Hb. revert i j a b L Ha Hb. induction l as [|x t IH]; intros i j a b L Ha Hb.
  - destruct i; discriminate.
  - assert (Ht : incb t = true /\ forall y, nth_error t 0 = Some y -> x < y).
    { destruct t as [|y t']; [split; [reflexivity|discriminate]|]. cbn [incb] in H.
      apply andb_prop in H. destruct H as [H1 H2]. split; [exact H2|]. cbn. intros y' E. inversion E; subst. lia. }
    destruct Ht as [Ht Hx]. destruct j as [|j]; [lia|]. cbn [nth_error] in Hb. destruct i as [|i]; cbn [nth_error] in Ha.
    + inversion Ha; subst. destruct t as [|y t']; [destruct j; discriminate|].
      specialize (Hx y eq_refl). destruct j as [|j]; [cbn in Hb; inversion Hb; subst; auto|].
      enough (y < b) by lia. apply (IH Ht 0%nat (S j)); auto. lia.
    + apply (IH Ht i j); auto. lia.
Qed.
Lemma tables_increasing l : In l [last0; last1; last4; last5] -> increasing l /\ (1 <= length l <= 64)%nat.
Proof.
  cbn [In]. intros [ <- | [ <- | [ <- | [ <- | [] ] ] ] ];
    (split; [apply incb_ok; vm_compute; reflexivity | vm_compute; lia]).
Qed.
Lemma too_many_pools : exists borders v,
  increasing borders /\ length borders = 65%nat /\ find_pool borders v = UB.
Proof.
  exists (map Z.of_nat (seq 0 65)), 3. split; [apply incb_ok; vm_compute; reflexivity|].
  split; vm_compute; reflexivity.
Qed.
