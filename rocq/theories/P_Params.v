(** * P_Params: parameters, step limits, padded sizes, parameter order. *)
Require Import List Bool Arith ZArith Lia Znumtheory.
Require Import ZifyBool.
Require Import Verif.M_Base Verif.M_Params Verif.M_Padding Verif.M_Buffer.
Require Import Verif.S_Params Verif.P_Base.
Import ListNotations.
Open Scope Z_scope.

Lemma min_elem_spec l : l <> [] ->
  exists m, min_elem l = Ok m /\ In m l /\ Forall (fun n => m <= n) l.
Proof.
  induction l as [|x l IH]; [congruence|]. intros _.
  destruct l as [|y l].
  - exists x; simpl; repeat split; auto. constructor; [lia|constructor].
  - destruct IH as (m & E & Hin & Hall); [congruence|].
    exists (Z.min x m). change (min_elem (x :: y :: l)) with (let* m := min_elem (y :: l) in Ok (Z.min x m)).
    rewrite E. split; [reflexivity|]. split.
    + destruct (Z.min_spec x m) as [[? ->]|[? ->]]; [left|right]; auto.
    + constructor; [lia|]. eapply Forall_impl; [|exact Hall]. simpl; intros; lia.
Qed.

Lemma log2_div_spec m q k : 1 <= q -> q <= m -> 0 <= k ->
  (k <= Z.log2 (m / q) <-> 2 ^ k * q <= m).
Proof.
  intros Hq Hm Hk.
  assert (1 <= m / q) by (apply Z.div_le_lower_bound; lia).
  rewrite <- Z.log2_le_pow2 by lia.
  split; intros H1.
  - pose proof (Z.mul_div_le m q ltac:(lia)). nia.
  - apply Z.div_le_lower_bound; lia.
Qed.

Lemma max_steps_ok t sh m : 1 <= t -> min_elem sh = Ok m -> 2 * t - 1 <= m ->
  max_steps t sh = Ok (Z.log2 (m / (2 * t - 1))).
Proof.
  intros Ht Hm Hle. unfold max_steps. destruct (Z.eqb_spec t 0); [lia|].
  rewrite Hm. cbn [bind]. rewrite guard_true by lia. reflexivity.
Qed.

Lemma Forall_min (P : Z -> Prop) l m :
  In m l -> Forall (fun n => m <= n) l -> (forall a b, a <= b -> P a -> P b) ->
  (Forall P l <-> P m).
Proof.
  intros Hin Hall Hmono. split; intros H.
  - rewrite Forall_forall in H; auto.
  - rewrite Forall_forall in *. intros x Hx. eapply Hmono; [|exact H]. auto.
Qed.

Lemma min_signal_ok t : - 2 ^ 30 <= t < 2 ^ 30 -> min_signal_size t = Ok (wrap64 (t * 2)).
Proof. intros. unfold min_signal_size. rewrite guard_true by lia. reflexivity. Qed.

Lemma legal_dec_steps p m :
  1 <= wtype p -> In m (shape p) -> Forall (fun n => m <= n) (shape p) ->
  0 <= steps p -> 2 * wtype p - 1 <= m ->
  (Forall (fun n => 2 ^ steps p * (2 * wtype p - 1) <= n) (shape p)
   <-> steps p <= Z.log2 (m / (2 * wtype p - 1))).
Proof.
  intros Ht Hin Hall Hs Hm.
  rewrite log2_div_spec by lia.
  apply (Forall_min (fun n => 2 ^ steps p * (2 * wtype p - 1) <= n)); auto. intros; lia.
Qed.

Lemma shape_nonempty (l : list Z) : length l = 1%nat \/ length l = 2%nat -> l <> [].
Proof. destruct l; simpl; [lia|congruence]. Qed.

Section NB.
Context {T : Type}.

Lemma new_buffer_legal (p : params) :
  params_rep p -> 0 <= wtype p < 2 ^ 30 -> legal p ->
  @new_buffer T p = Ok (Buffer p (repeat (repeat mempty (decomposition_size p)) (Z.to_nat (signum p)))).
Proof.
  intros (Hsh & _ & Hnum & Hst & _) Ht (Hdim & Hmin & Hsteps).
  unfold new_buffer, dimension.
  replace (negb _) with false by (destruct Hdim as [-> | ->]; reflexivity).
  rewrite min_signal_ok by lia. cbn [bind].
  destruct (min_elem_spec _ (shape_nonempty _ Hdim)) as (m & Em & Hin & Hall). rewrite Em. cbn [bind].
  rewrite Forall_forall in Hmin. pose proof (Hmin m Hin) as Hm2.
  unfold wrap64. rewrite Z.mod_small by lia.
  destruct (Z.ltb_spec m (wtype p * 2)); [lia|].
  unfold u64 in *. rewrite Forall_forall in Hsh. pose proof (Hsh m Hin).
  destruct (Z.eqb_spec (wtype p) 0) as [E0|E0].
  - unfold max_steps. rewrite E0. cbn [bind Z.eqb].
    rewrite Hsteps. cbn [Z.ltb Z.compare].
    destruct p as [sh nu st ty]; simpl in E0, Hsteps; subst; reflexivity.
  - rewrite max_steps_ok with (m := m) by (auto; lia). cbn [bind].
    apply (legal_dec_steps p m) in Hsteps; try lia; auto.
    destruct (Z.ltb_spec (Z.log2 (m / (2 * wtype p - 1))) (steps p)); [lia|].
    destruct p; reflexivity.
Qed.

Lemma new_buffer_illegal (p : params) :
  params_rep p -> 0 <= wtype p < 2 ^ 30 -> ~ legal p -> @new_buffer T p = Throw.
Proof.
  intros (Hsh & _ & Hnum & Hst & _) Ht Hl.
  unfold new_buffer, dimension.
  destruct (Nat.eqb_spec (length (shape p)) 2) as [E2|E2],
           (Nat.eqb_spec (length (shape p)) 1) as [E1|E1]; simpl orb; cbn [negb]; auto; try lia.
  1,2: assert (Hdim : length (shape p) = 1%nat \/ length (shape p) = 2%nat) by lia;
  rewrite min_signal_ok by lia; cbn [bind];
  destruct (min_elem_spec _ (shape_nonempty _ Hdim)) as (m & Em & Hin & Hall); rewrite Em; cbn [bind];
  unfold wrap64; rewrite Z.mod_small by lia;
  destruct (Z.ltb_spec m (wtype p * 2)); auto;
  unfold u64 in *; rewrite Forall_forall in Hsh; pose proof (Hsh m Hin);
  destruct (Z.eqb_spec (wtype p) 0) as [Ez|Ez];
  [ unfold max_steps; rewrite Ez; cbn [bind Z.eqb];
    destruct (Z.ltb_spec 0 (steps p)); auto; exfalso; apply Hl; unfold legal; rewrite Ez; simpl;
    split; auto; split; [|lia]; apply (Forall_min (fun n => 0 <= n) _ m); auto; intros; lia
  | rewrite max_steps_ok with (m := m) by (auto; lia); cbn [bind];
    destruct (Z.ltb_spec (Z.log2 (m / (2 * wtype p - 1))) (steps p)); auto; exfalso; apply Hl;
    unfold legal; destruct (Z.eqb_spec (wtype p) 0); [lia|];
    split; auto; split;
    [apply (Forall_min (fun n => 2 * wtype p <= n) _ m); auto; intros; lia
    |apply (legal_dec_steps p m); auto; lia] ].
Qed.

(** negative types never pass (unless a side is astronomically long) *)
Lemma new_buffer_negative (p : params) :
  params_rep p -> - 2 ^ 30 <= wtype p < 0 -> Forall (fun n => n < 2 ^ 63) (shape p) ->
  @new_buffer T p = Throw.
Proof.
  intros (Hsh & _ & Hnum & Hst & _) Ht Hl.
  unfold new_buffer, dimension.
  destruct (Nat.eqb_spec (length (shape p)) 2) as [E2|E2],
           (Nat.eqb_spec (length (shape p)) 1) as [E1|E1]; simpl orb; cbn [negb]; auto; try lia.
  1,2: assert (Hdim : length (shape p) = 1%nat \/ length (shape p) = 2%nat) by lia;
  rewrite min_signal_ok by lia; cbn [bind];
  destruct (min_elem_spec _ (shape_nonempty _ Hdim)) as (m & Em & Hin & Hall); rewrite Em; cbn [bind];
  rewrite Forall_forall in Hl; specialize (Hl m Hin);
  unfold wrap64; rewrite <- (Z.mod_add (wtype p * 2) 1) by lia;
  rewrite Z.mod_small by lia;
  destruct (Z.ltb_spec m (wtype p * 2 + 1 * 2 ^ 64)); [reflexivity|lia].
Qed.

End NB.

Lemma decomposition_size_spec p :
  length (shape p) = 1%nat \/ length (shape p) = 2%nat ->
  decomposition_size p = subband_count p.
Proof.
  unfold decomposition_size, subband_count, spw, dimension.
  destruct (shape p) as [|a [|b [|c l]]]; simpl length; intros [H|H]; try lia; simpl Nat.eqb; cbv iota; lia.
Qed.

Lemma constructor_correct (T : Type) (p : params) :
  params_rep p -> 0 <= wtype p < 2 ^ 30 ->
  (legal p ->
     exists b : buffer T, new_buffer p = Ok b /\ bpar b = p /\
       Z.of_nat (length (bdec b)) = signum p /\
       forall ch, In ch (bdec b) ->
         length ch = subband_count p /\
         forall sb, In sb ch -> rows sb = 0%nat /\ cols sb = 0%nat /\ elts sb = []) /\
  (~ legal p -> @new_buffer T p = Throw).
Proof.
  intros Hr Ht. split; [|apply new_buffer_illegal; auto].
  intros Hl. rewrite new_buffer_legal by auto.
  eexists; split; [reflexivity|]. cbn [bpar bdec].
  split; [reflexivity|]. destruct Hr as (_ & _ & Hn & _). unfold u64 in Hn.
  rewrite repeat_length. split; [lia|].
  intros ch Hch. apply repeat_spec in Hch. subst ch.
  rewrite repeat_length. split; [apply decomposition_size_spec; apply Hl|].
  intros sb Hsb. apply repeat_spec in Hsb. subst sb. auto.
Qed.

Lemma max_steps_correct (T : Type) t n num :
  1 <= t < 2 ^ 30 -> 2 * t <= n < 2 ^ 64 -> 0 <= num < 2 ^ 64 ->
  exists k, 0 <= k < 64 /\ 2 ^ k * (2 * t - 1) <= n /\
    (forall k', 0 <= k' -> 2 ^ k' * (2 * t - 1) <= n -> k' <= k) /\
    forall s, 0 <= s < 2 ^ 64 ->
      (s <= k <-> exists b : buffer T, new_buffer (Params [n] num s t) = Ok b) /\
      (k < s <-> @new_buffer T (Params [n] num s t) = Throw).
Proof.
  intros Ht Hn Hnum. exists (Z.log2 (n / (2 * t - 1))).
  assert (H1 : forall k', 0 <= k' -> (k' <= Z.log2 (n / (2 * t - 1)) <-> 2 ^ k' * (2 * t - 1) <= n)).
  { intros. apply log2_div_spec; lia. }
  pose proof (Z.log2_nonneg (n / (2 * t - 1))) as H0.
  split.
  { split; auto. destruct (Z_lt_ge_dec (Z.log2 (n / (2 * t - 1))) 64); auto.
    assert (2 ^ 64 * (2 * t - 1) <= n) by (apply H1; lia). nia. }
  split; [apply H1; lia|]. split; [intros; apply H1; auto|].
  intros s Hs.
  assert (HR : params_rep (Params [n] num s t)).
  { unfold params_rep, u64, i32; simpl. repeat split; try lia; try (constructor; [lia|constructor]). }
  assert (HL : legal (Params [n] num s t) <-> s <= Z.log2 (n / (2 * t - 1))).
  { rewrite H1 by lia. unfold legal; cbn [shape wtype steps length]. destruct (Z.eqb_spec t 0); [lia|].
    split; [intros (_ & _ & H); inversion H; auto|].
    intros; repeat split; auto; constructor; auto; lia. }
  destruct (constructor_correct T (Params [n] num s t) HR) as [C1 C2]; [simpl; lia|].
  split; split.
  - intros Hle. apply HL in Hle. destruct (C1 Hle) as (b & E & _). eauto.
  - intros (b & E). destruct (Z_le_gt_dec s (Z.log2 (n / (2 * t - 1)))); auto.
    assert (~ legal (Params [n] num s t)) as NL by (rewrite HL; lia).
    rewrite C2 in E by auto. discriminate.
  - intros Hlt. apply C2. rewrite HL; lia.
  - intros E. destruct (Z_le_gt_dec s (Z.log2 (n / (2 * t - 1)))) as [Hle|]; [|lia].
    apply HL in Hle. destruct (C1 Hle) as (b & E' & _). congruence.
Qed.

Lemma padded_side_spec k n :
  0 <= k -> 1 <= n -> n + 2 ^ k <= 2 ^ 64 ->
  least_multiple (2 ^ k) n (padded_side (2 ^ k) n) /\ padded_side (2 ^ k) n < n + 2 ^ k.
Proof.
  intros Hk Hn Hb. assert (0 < 2 ^ k) by (apply Z.pow_pos_nonneg; lia).
  unfold padded_side, wrap64. rewrite (Z.mod_small (n - 1)) by lia.
  pose proof (Z.div_mod (n - 1) (2 ^ k) ltac:(lia)) as E.
  pose proof (Z.mod_pos_bound (n - 1) (2 ^ k) ltac:(lia)) as B.
  rewrite Z.mod_small by nia.
  split; [|nia]. split; [|split].
  - exists ((n - 1) / 2 ^ k + 1). ring.
  - nia.
  - intros m' [q ->] Hle.
    assert ((n - 1) / 2 ^ k < q) by nia. nia.
Qed.

Lemma calc_padded_correct t sh k :
  0 <= k -> 1 <= t -> Forall (fun n => 2 ^ k * (2 * t - 1) <= n) sh ->
  Forall (fun n => 1 <= n /\ n + 2 ^ k <= 2 ^ 64) sh -> sh <> [] ->
  exists l, calc_padded t sh k = Ok l /\
    Forall2 (fun n m => least_multiple (2 ^ k) n m /\ m < n + 2 ^ k) sh l.
Proof.
  intros Hk Ht Hf Hn Hne. unfold calc_padded.
  destruct (Z.eqb_spec t 0); [lia|].
  destruct (min_elem_spec sh Hne) as (m & Em & Hin & Hall).
  assert (2 ^ k * (2 * t - 1) <= m) by (rewrite Forall_forall in Hf; auto).
  assert (0 < 2 ^ k) by (apply Z.pow_pos_nonneg; lia).
  rewrite max_steps_ok with (m := m) by (auto; nia). cbn [bind].
  assert (k <= Z.log2 (m / (2 * t - 1))) by (apply log2_div_spec; nia).
  rewrite guard_true by lia. cbn [bind]. eexists; split; [reflexivity|].
  clear - Hn Hk. induction Hn; simpl; constructor; auto.
  apply padded_side_spec; lia.
Qed.

(** ** Order on parameters *)
Lemma list_eqb_eq a b : list_eqb a b = true <-> a = b.
Proof.
  revert b; induction a as [|x a IH]; intros [|y b]; simpl; try (split; congruence).
  rewrite andb_true_iff, IH, Z.eqb_eq. split; [intros []; congruence|intros E; inversion E; auto].
Qed.

Lemma list_ltb_trichotomy a b :
  (list_ltb a b = true /\ list_ltb b a = false /\ a <> b) \/
  (list_ltb a b = false /\ list_ltb b a = true /\ a <> b) \/
  (list_ltb a b = false /\ list_ltb b a = false /\ a = b).
Proof.
  revert b; induction a as [|x a IH]; intros [|y b]; simpl.
  - tauto.
  - left; repeat split; congruence.
  - right; left; repeat split; congruence.
  - destruct (Z.ltb_spec x y), (Z.ltb_spec y x); try lia.
    + left; repeat split; auto; intros E; inversion E; lia.
    + right; left; repeat split; auto; intros E; inversion E; lia.
    + assert (x = y) by lia; subst y.
      destruct (IH b) as [(?&?&?)|[(?&?&?)|(?&?&?)]]; [left|right; left|right; right];
        repeat split; auto; try congruence.
Qed.

Lemma list_ltb_trans a b c :
  list_ltb a b = true -> list_ltb b c = true -> list_ltb a c = true.
Proof.
  revert b c; induction a as [|x a IH]; intros [|y b] [|z c]; simpl; try congruence.
  destruct (Z.ltb_spec x y), (Z.ltb_spec y z), (Z.ltb_spec x z); auto; try lia;
    try (destruct (Z.ltb_spec y x); [congruence|]);
    try (destruct (Z.ltb_spec z y); [congruence|]);
    try (destruct (Z.ltb_spec z x); [lia|]); try lia; try congruence.
  apply IH.
Qed.

Lemma params_eqb_eq a b : params_eqb a b = true <-> a = b.
Proof.
  unfold params_eqb. rewrite !andb_true_iff, list_eqb_eq, !Z.eqb_eq.
  destruct a, b; simpl. split; [intros [[[]]]; congruence|intros E; inversion E; auto].
Qed.

Lemma params_ltb_trichotomy a b :
  (params_ltb a b = true /\ params_ltb b a = false /\ a <> b) \/
  (params_ltb a b = false /\ params_ltb b a = true /\ a <> b) \/
  (params_ltb a b = false /\ params_ltb b a = false /\ a = b).
Proof.
  unfold params_ltb. destruct a as [sa na ka ta], b as [sb nb kb tb]; simpl.
  destruct (list_ltb_trichotomy sa sb) as [(-> & -> & E)|[(-> & -> & E)|(-> & -> & E)]].
  - left; repeat split; congruence.
  - right; left; repeat split; congruence.
  - subst sb.
    destruct (Z.ltb_spec na nb), (Z.ltb_spec nb na); try lia;
      [left|right; left|]; try (repeat split; auto; intros E; inversion E; lia).
    destruct (Z.ltb_spec ka kb), (Z.ltb_spec kb ka); try lia;
      [left|right; left|]; try (repeat split; auto; intros E; inversion E; lia).
    destruct (Z.ltb_spec ta tb), (Z.ltb_spec tb ta); try lia;
      [left|right; left|right; right]; try (repeat split; auto; intros E; inversion E; lia).
    repeat split; auto. f_equal; lia.
Qed.

Lemma params_ltb_trans a b c :
  params_ltb a b = true -> params_ltb b c = true -> params_ltb a c = true.
Proof.
  unfold params_ltb. destruct a as [sa na ka ta], b as [sb nb kb tb], c as [sc nc kc tc]; simpl.
  destruct (list_ltb_trichotomy sa sb) as [(L1 & L1' & E)|[(L1 & L1' & E)|(L1 & L1' & E)]];
  rewrite ?L1, ?L1'; try congruence.
  - destruct (list_ltb_trichotomy sb sc) as [(L2 & L2' & E2)|[(L2 & L2' & E2)|(L2 & L2' & E2)]];
    rewrite ?L2, ?L2'; try congruence.
    + rewrite (list_ltb_trans _ _ _ L1 L2); auto.
    + subst sc; rewrite L1; auto.
  - subst sb.
    destruct (list_ltb_trichotomy sa sc) as [(L2 & L2' & E2)|[(L2 & L2' & E2)|(L2 & L2' & E2)]];
    rewrite ?L2, ?L2'; try congruence.
    clear.
    destruct (Z.ltb_spec na nb); destruct (Z.ltb_spec nb na); try lia; try congruence;
    destruct (Z.ltb_spec nb nc); destruct (Z.ltb_spec nc nb); try lia; try congruence;
    destruct (Z.ltb_spec na nc); destruct (Z.ltb_spec nc na); try lia; try congruence.
    destruct (Z.ltb_spec ka kb); destruct (Z.ltb_spec kb ka); try lia; try congruence;
    destruct (Z.ltb_spec kb kc); destruct (Z.ltb_spec kc kb); try lia; try congruence;
    destruct (Z.ltb_spec ka kc); destruct (Z.ltb_spec kc ka); try lia; try congruence.
Qed.

Lemma params_order :
  (forall a, params_ltb a a = false) /\
  (forall a b c, params_ltb a b = true -> params_ltb b c = true -> params_ltb a c = true) /\
  (forall a b, params_ltb a b = true -> params_ltb b a = false) /\
  (forall a b, a <> b -> params_ltb a b = true \/ params_ltb b a = true) /\
  (forall a b, params_eqb a b = true <-> a = b) /\
  (forall a b, params_eqb a b = true <-> (params_ltb a b = false /\ params_ltb b a = false)) /\
  (forall a b, params_neqb a b = negb (params_eqb a b)) /\
  (forall a b, params_gtb a b = params_ltb b a) /\
  (forall a b, params_leb a b = orb (params_ltb a b) (params_eqb a b)) /\
  (forall a b, params_geb a b = orb (params_ltb b a) (params_eqb a b)).
Proof.
  assert (HE : forall a b, params_eqb a b = true <-> (params_ltb a b = false /\ params_ltb b a = false)).
  { intros a b. rewrite params_eqb_eq.
    destruct (params_ltb_trichotomy a b) as [(H1 & H2 & H3)|[(H1 & H2 & H3)|(H1 & H2 & H3)]];
      rewrite H1, H2; intuition congruence. }
  assert (HS : forall a b, params_eqb a b = params_eqb b a).
  { intros a b. destruct (params_eqb b a) eqn:E.
    - apply params_eqb_eq in E. subst. apply params_eqb_eq. reflexivity.
    - destruct (params_eqb a b) eqn:E2; auto. apply params_eqb_eq in E2. subst.
      rewrite (proj2 (params_eqb_eq _ _) eq_refl) in E. discriminate. }
  assert (HB : forall a b, negb (params_ltb b a) = orb (params_ltb a b) (params_eqb a b)).
  { intros a b. destruct (params_eqb a b) eqn:E.
    - apply HE in E. destruct E as [-> ->]. reflexivity.
    - assert (a <> b) by (intros ->; rewrite (proj2 (params_eqb_eq _ _) eq_refl) in E; discriminate).
      destruct (params_ltb_trichotomy a b) as [(H1 & H2 & H3)|[(H1 & H2 & H3)|(H1 & H2 & H3)]];
        rewrite H1, H2; try reflexivity; congruence. }
  repeat split.
  - intros a. destruct (params_ltb_trichotomy a a) as [(H1 & H2 & H3)|[(H1 & H2 & H3)|(H1 & H2 & H3)]]; congruence.
  - exact params_ltb_trans.
  - intros a b H. destruct (params_ltb_trichotomy a b) as [(H1 & H2 & H3)|[(H1 & H2 & H3)|(H1 & H2 & H3)]]; congruence.
  - intros a b H. destruct (params_ltb_trichotomy a b) as [(H1 & H2 & H3)|[(H1 & H2 & H3)|(H1 & H2 & H3)]]; auto; congruence.
  - apply params_eqb_eq.
  - apply params_eqb_eq.
  - apply (proj1 (HE a b) H).
  - apply (proj1 (HE a b) H).
  - intros [H1 H2]. apply HE. auto.
  - intros a b. unfold params_neqb. rewrite HS. reflexivity.
  - intros a b. unfold params_leb. rewrite <- HB. reflexivity.
  - intros a b. unfold params_geb. rewrite HS, <- HB. reflexivity.
Qed.
