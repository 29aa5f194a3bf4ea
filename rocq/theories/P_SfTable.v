(** * P_SfTable: code tables of the legacy compressor: what is written
    describes them, and every entry is read back. *)
Require Import List ZArith Lia Bool ZifyBool.
Import ListNotations.
From Verif Require Import M_Base P_Base M_Archive M_Sf S_Sf P_Sf M_SfCodec.
Open Scope Z_scope.

(** reading [codes] with [f] gives [a] *)
Definition reads {A} (f : reader -> res (A * reader)) (codes : list (Z * Z)) (a : A) : Prop :=
  Forall is_code codes /\
  forall r tl, reader_ok r -> stream r = codes_bits codes ++ tl ->
    exists r', f r = Ok (a, r') /\ reader_ok r' /\ stream r' = tl /\ length (r_data r') = length (r_data r).

Lemma codes_bits_app a b : codes_bits (a ++ b) = codes_bits a ++ codes_bits b.
Proof. unfold codes_bits. apply flat_map_app. Qed.

Lemma reads_nine n sel : 1 <= n <= 2 ^ 31 -> 0 <= sel < n ->
  exists c, seven_of_nine sel n = Ok c /\ is_code c /\ fst c <= 31 /\
    reads (fun r => nine_of_seven r n) [c] sel.
Proof.
  intros Hn Hs. destruct (nine_seven n sel Hn Hs) as (c & E & Hc & H31 & H).
  exists c. repeat split; auto; try apply Hc.
  intros r tl Hr Hst. cbn [codes_bits flat_map] in Hst. rewrite app_nil_r in Hst. auto.
Qed.


(** ** Complete tables

    [table last ps ldc ldp ldl free]: the pools [ps] (taken from the pools with
    the borders [last]) come after the codes up to [ldc], the pools up to
    [ldp] and the length [ldl], and use exactly the share [free]. *)
Fixpoint table (last : list Z) (ps : list opool) (ldc ldp ldl free : Z) : Prop :=
  match ps with
  | [] => free = 0
  | p :: t =>
      let u := 2 ^ (32 - p_len p) in
      ldl < p_len p <= 31 /\ ldp < p_nr p /\ nth_error last (Z.to_nat (p_nr p)) = Some (p_last p) /\
      ldc < p_last p /\
      p_off p * u = 2 ^ 32 - free - (ldc + 1) * u /\
      (t = [] <-> free - (p_last p - ldc) * u = 0) /\
      table last t (p_last p) (p_nr p) (p_len p) (free - (p_last p - ldc) * u)
  end.

(** what is known before the pools *)
Record before (last : list Z) (ldc ldp ldl free : Z) : Prop := {
  bf_ldc : -1 <= ldc;
  bf_ldp : -1 <= ldp;
  bf_at : (ldp = -1 /\ ldc = -1) \/ (0 <= ldp /\ nth_error last (Z.to_nat ldp) = Some ldc);
  bf_ldl : -1 <= ldl <= 31;
  bf_free : 0 <= free <= 2 ^ 32;
  bf_div : forall len, ldl <= len <= 31 -> 0 <= len -> exists k, free = k * 2 ^ (32 - len);
  bf_room : forall len, ldl <= len <= 31 -> 0 <= len -> (ldc + 1) * 2 ^ (32 - len) <= 2 ^ 32 - free
}.

Lemma pow_split a b : 0 <= a <= b -> 2 ^ b = 2 ^ (b - a) * 2 ^ a.
Proof. intros. rewrite <- pow2_add by lia. f_equal. lia. Qed.

Lemma table_nonneg last ps : forall ldc ldp ldl free, table last ps ldc ldp ldl free -> -1 <= ldc -> -1 <= ldl -> 0 <= free.
Proof.
  induction ps as [|p t IH]; intros ldc ldp ldl free H Hc Hl; cbn [table] in H; [lia|].
  destruct H as (Hlen & Hnr & Hn & Hlast & Hoff & Hend & Ht).
  assert (0 < 2 ^ (32 - p_len p)) by (apply pow2_pos; lia).
  specialize (IH _ _ _ _ Ht ltac:(lia) ltac:(lia)).
  nia.
Qed.

Lemma before_next last p t ldc ldp ldl free : before last ldc ldp ldl free ->
  table last (p :: t) ldc ldp ldl free ->
  before last (p_last p) (p_nr p) (p_len p) (free - (p_last p - ldc) * 2 ^ (32 - p_len p)).
Proof.
  intros B H. cbn [table] in H. destruct H as (Hlen & Hnr & Hn & Hlast & Hoff & Hend & Ht).
  destruct B as [B1 B2 B3 B4 B5 B6 B7].
  set (u := 2 ^ (32 - p_len p)) in *.
  assert (Pu : 0 < u) by (apply pow2_pos; lia).
  pose proof (table_nonneg _ _ _ _ _ _ Ht ltac:(lia) ltac:(lia)) as Hf.
  destruct (B6 (p_len p) ltac:(lia) ltac:(lia)) as (k & Hk). fold u in Hk.
  pose proof (B7 (p_len p) ltac:(lia) ltac:(lia)) as Hroom. fold u in Hroom.
  constructor; try lia.
  - right. split; [lia|auto].
  - split; [lia|nia].
  - intros len Hl1 Hl2.
    exists ((k - (p_last p - ldc)) * 2 ^ (len - p_len p)).
    replace (2 ^ (len - p_len p)) with (2 ^ ((32 - p_len p) - (32 - len))) by (f_equal; lia).
    rewrite <- Z.mul_assoc, <- pow_split by lia. fold u. lia.
  - intros len Hl1 Hl2.
    assert (2 ^ (32 - len) <= u) by (apply pow2_le; lia).
    assert (0 < 2 ^ (32 - len)) by (apply pow2_pos; lia). nia.
Qed.

Lemma div_units free len : 0 <= len <= 31 -> (exists k, free = k * 2 ^ (32 - len)) ->
  free * 2 ^ len / 2 ^ 32 = free / 2 ^ (32 - len) /\ free = free / 2 ^ (32 - len) * 2 ^ (32 - len).
Proof.
  intros Hl (k & ->).
  assert (P : 0 < 2 ^ (32 - len)) by (apply pow2_pos; lia).
  rewrite <- Z.mul_assoc, <- pow2_add by lia. replace (32 - len + len) with 32 by lia.
  rewrite !Z.div_mul by lia. auto.
Qed.

(** *** MaxPossCode and MaxPossPool *)
Definition small_table (last : list Z) : Prop :=
  (length last <= 63)%nat /\ increasing last /\
  (forall i a b, nth_error last i = Some a -> nth_error last1 i = Some b -> b <= a) /\
  (forall i a, nth_error last i = Some a -> 0 <= a <= 2 ^ 31).

Lemma last1_len : length last1 = 63%nat. Proof. reflexivity. Qed.
Lemma last1_inc : increasing last1.
Proof. apply (tables_increasing last1). right; left; reflexivity. Qed.

Lemma find1 last nr m : small_table last -> 0 <= nr -> (exists l, nth_error last (Z.to_nat nr) = Some l /\ l <= m) ->
  exists mp, find_pool last1 m = Ok mp /\ nr <= mp <= 62.
Proof.
  intros (Hlen & Hinc & Hle & Hr) Hnr (l & Hl & Hm).
  destruct (find_pool_ok last1 m last1_inc ltac:(rewrite last1_len; lia)) as (mp & E & (R & Lo & Hi)).
  exists mp. split; [auto|]. rewrite last1_len in R. split; [|lia].
  destruct (Z.le_gt_cases nr mp) as [|G]; [auto|exfalso].
  assert (Hi1 : (Z.to_nat nr < length last)%nat) by (apply nth_lt in Hl; auto).
  destruct (nth_error last1 (Z.to_nat mp)) as [b|] eqn:Eb; [|apply nth_error_None in Eb; rewrite last1_len in Eb; lia].
  destruct (nth_error last (Z.to_nat mp)) as [a|] eqn:Ea; [|apply nth_error_None in Ea; lia].
  specialize (Hle _ _ _ Ea Eb).
  assert (a < l) by (apply (Hinc (Z.to_nat mp) (Z.to_nat nr)); auto; lia).
  destruct (Hi b eq_refl) as [|]; [lia|]. rewrite last1_len in H0. lia.
Qed.

Lemma find1_any m : exists mp, find_pool last1 m = Ok mp /\ 0 <= mp <= 62.
Proof.
  destruct (find_pool_ok last1 m last1_inc ltac:(rewrite last1_len; lia)) as (mp & E & (R & _)).
  exists mp. rewrite last1_len in R. split; [auto|lia].
Qed.

Lemma max_poss_ok last ldc ldp ldl free len : before last ldc ldp ldl free -> 0 < free -> ldl <= len <= 31 -> 0 <= len ->
  exists m, max_poss ldc free len = Ok m /\ m = ldc + free / 2 ^ (32 - len) /\ ldc < m.
Proof.
  intros B Hf Hl H0. destruct (div_units free len ltac:(lia) (bf_div _ _ _ _ _ B len Hl H0)) as (E1 & E2).
  unfold max_poss. rewrite E1. set (q := free / 2 ^ (32 - len)) in *.
  pose proof (bf_room _ _ _ _ _ B len Hl H0) as R. pose proof (bf_ldc _ _ _ _ _ B).
  assert (P : 0 < 2 ^ (32 - len)) by (apply pow2_pos; lia).
  assert (1 <= q) by nia.
  assert (Hp : (ldc + 1 + q) * 2 ^ (32 - len) <= 2 ^ len * 2 ^ (32 - len)).
  { rewrite <- pow2_add by lia. replace (len + (32 - len)) with 32 by lia. lia. }
  apply Z.mul_le_mono_pos_r in Hp; [|auto].
  pose proof (pow2_lt len 32 ltac:(lia)).
  unfold guard. replace ((0 <=? ldc + q) && (ldc + q <? 2 ^ 32)) with true by (symmetry; apply andb_true_intro; lia).
  cbn [bind]. exists (ldc + q). split; [auto|]. split; [auto|lia].
Qed.

(** *** one pool: its description and how it is read *)
Lemma mp_ok last ldc ldp ldl free len : small_table last -> before last ldc ldp ldl free -> 0 < free -> ldl <= len <= 31 -> 0 <= len ->
  exists m mp, max_poss ldc free len = Ok m /\ m = ldc + free / 2 ^ (32 - len) /\
    find_pool last1 m = Ok mp /\ ldp <= mp <= 62 /\ w32 (mp - ldp + 1) = mp - ldp + 1.
Proof.
  intros Hs B Hf Hl H0. destruct (max_poss_ok last ldc ldp ldl free len B Hf Hl H0) as (m & E & Em & Hm).
  assert (M : exists mp, find_pool last1 m = Ok mp /\ ldp <= mp <= 62).
  { destruct (bf_at _ _ _ _ _ B) as [[-> _]|[Hp Hn]].
    - destruct (find1_any m) as (mp & ? & ?). exists mp. split; [auto|lia].
    - apply (find1 last); auto. exists ldc. split; [auto|lia]. }
  destruct M as (mp & E1 & R). exists m, mp. repeat split; auto; try lia.
  apply w32_id. pose proof (bf_ldp _ _ _ _ _ B). lia.
Qed.

Lemma gaps_next last ldc ldp free p : small_table last ->
  forall n ldl, before last ldc ldp ldl free -> 0 < free ->
  p_len p - 1 - ldl = Z.of_nat n -> ldl < p_len p <= 31 -> ldp < p_nr p ->
  nth_error last (Z.to_nat (p_nr p)) = Some (p_last p) ->
  (p_last p - ldc) * 2 ^ (32 - p_len p) <= free ->
  forall fuel, (n < fuel)%nat ->
  exists g m mp c, gaps fuel ldc ldp ldl free (p_len p) = Ok g /\ length g = n /\
    max_poss ldc free (p_len p) = Ok m /\ find_pool last1 m = Ok mp /\
    seven_of_nine (w32 (p_nr p - ldp)) (w32 (mp - ldp + 1)) = Ok c /\
    reads (fun r => next_pool fuel r ldc ldp ldl free) (g ++ [c]) (p_len p, p_nr p - ldp).
Proof.
  intros Hs. induction n; intros ldl B Hf Hn Hlen Hnr Hnth Hshare fuel Hfuel; (destruct fuel as [|fuel]; [lia|]).
  - pose proof (bf_ldl _ _ _ _ _ B) as Bl. pose proof (bf_ldp _ _ _ _ _ B) as Bp.
    assert (Hl : p_len p = ldl + 1) by lia.
    destruct (mp_ok last ldc ldp ldl free (p_len p) Hs B Hf ltac:(lia) ltac:(lia)) as (m & mp & E & Em & E1 & R & W).
    assert (Hmp : p_nr p <= mp <= 62).
    { destruct (find1 last (p_nr p) m Hs ltac:(lia)) as (mp' & E1' & R').
      - exists (p_last p). split; [auto|]. rewrite Em.
        destruct (div_units free (p_len p) ltac:(lia) (bf_div _ _ _ _ _ B (p_len p) ltac:(lia) ltac:(lia))) as (_ & E2).
        assert (P : 0 < 2 ^ (32 - p_len p)) by (apply pow2_pos; lia).
        rewrite E2 in Hshare. apply Z.mul_le_mono_pos_r in Hshare; auto. lia.
      - rewrite E1 in E1'. inversion E1'; subst. auto. }
    destruct (reads_nine (mp - ldp + 1) (p_nr p - ldp) ltac:(lia) ltac:(lia)) as (c & Ec & Hc & _ & Hr).
    exists [], m, mp, c. cbn [gaps]. destruct (Z.ltb_spec ldl (p_len p - 1)); [lia|].
    split; [auto|]. split; [auto|]. split; [auto|]. split; [auto|].
    rewrite W. rewrite (w32_id (p_nr p - ldp)) by lia. split; [auto|].
    destruct Hr as [Hcs Hr]. split; [exact Hcs|]. intros r tl Hro Hst. cbn [app] in Hst.
    destruct (Hr r tl Hro Hst) as (r' & E2 & Hr').
    exists r'. split; [|exact Hr'].
    cbn [next_pool]. rewrite <- Hl. unfold guard. replace (p_len p <? 32) with true by (symmetry; apply Z.ltb_lt; lia).
    cbn [bind]. rewrite E. cbn [bind]. rewrite E1. cbn [bind]. rewrite W, E2. cbn [bind].
    destruct (Z.eqb_spec (p_nr p - ldp) 0); [lia|]. reflexivity.
  - pose proof (bf_ldl _ _ _ _ _ B) as Bl. pose proof (bf_ldp _ _ _ _ _ B) as Bp.
    assert (B' : before last ldc ldp (ldl + 1) free).
    { destruct B as [X1 X2 X3 X4 X5 X6 X7]. constructor; auto; try lia; intros; [apply X6|apply X7]; lia. }
    destruct (IHn (ldl + 1) B' Hf ltac:(lia) ltac:(lia) Hnr Hnth Hshare fuel ltac:(lia))
      as (g & m & mp & c & Eg & Lg & Em & Emp & Ec & Hrd).
    destruct (mp_ok last ldc ldp ldl free (ldl + 1) Hs B Hf ltac:(lia) ltac:(lia)) as (m0 & mp0 & E0 & _ & E1 & R & W).
    destruct (reads_nine (mp0 - ldp + 1) 0 ltac:(lia) ltac:(lia)) as (c0 & Ec0 & Hc0 & _ & Hr0).
    exists (c0 :: g), m, mp, c. cbn [gaps]. destruct (Z.ltb_spec ldl (p_len p - 1)); [|lia].
    rewrite E0. cbn [bind]. rewrite E1. cbn [bind]. rewrite W, Ec0. cbn [bind]. rewrite Eg. cbn [bind].
    split; [auto|]. split; [cbn; auto|]. split; [auto|]. split; [auto|]. split; [auto|].
    destruct Hrd as [Hcs Hrd]. split; [cbn [app]; constructor; auto|].
    intros r tl Hro Hst. cbn [app codes_bits flat_map] in Hst. rewrite <- app_assoc in Hst.
    destruct Hr0 as [_ Hr0]. destruct (Hr0 r (flat_map code_bits (g ++ [c]) ++ tl)) as (r1 & Er1 & Hr1 & Hs1 & L1); auto.
    { cbn [codes_bits flat_map]. rewrite app_nil_r. auto. }
    destruct (Hrd r1 tl Hr1 Hs1) as (r2 & Er2 & Hr2 & Hs2 & L2).
    exists r2. split; [|split; [auto|split; [auto|congruence]]].
    cbn [next_pool]. unfold guard. replace (ldl + 1 <? 32) with true by (symmetry; apply Z.ltb_lt; lia).
    cbn [bind]. rewrite E0. cbn [bind]. rewrite E1. cbn [bind]. rewrite W, Er1. cbn [bind].
    cbn [Z.eqb]. exact Er2.
Qed.

Lemma last_at_ok last i l : (length last <= 64)%nat -> 0 <= i -> nth_error last (Z.to_nat i) = Some l -> last_at last i = Ok l.
Proof.
  intros Hl Hi Hn. unfold last_at, rdz, rd. destruct (Z.ltb_spec i 0); [lia|].
  rewrite nth_error_app1 by (apply nth_lt in Hn; auto). rewrite Hn. reflexivity.
Qed.

(** *** the description of a table *)
Lemma describe_reads last : small_table last ->
  forall ps ldc ldp ldl free n, before last ldc ldp ldl free -> table last ps ldc ldp ldl free -> ps <> [] ->
  Z.of_nat (length last) - 1 - ldp <= Z.of_nat n ->
  exists d, describe last ps ldc ldp ldl free = Ok d /\ Z.of_nat (length d) <= 31 - ldl /\
    reads (fun r => read_pools n last r ldc ldp ldl free) d ps.
Proof.
  intros Hs. induction ps as [|p t IH]; intros ldc ldp ldl free n B T Hne Hn; [congruence|].
  pose proof (before_next _ _ _ _ _ _ _ B T) as B'.
  cbn [table] in T. destruct T as (Hlen & Hnr & Hnth & Hlast & Hoff & Hend & Ht).
  set (u := 2 ^ (32 - p_len p)) in *.
  assert (Pu : 0 < u) by (apply pow2_pos; lia).
  pose proof (bf_ldc _ _ _ _ _ B) as Bc. pose proof (bf_ldp _ _ _ _ _ B) as Bp. pose proof (bf_ldl _ _ _ _ _ B) as Bl.
  pose proof (bf_free _ _ _ _ _ B') as Hf'.
  assert (Hfree : 0 < free) by nia.
  assert (Hidx : (Z.to_nat (p_nr p) < length last)%nat) by (apply nth_lt in Hnth; auto).
  destruct Hs as (S1 & S2 & S3 & S4). pose proof (S4 _ _ Hnth) as Rl.
  assert (Hs : small_table last) by (repeat split; auto; eapply S4; eauto).
  destruct (gaps_next last ldc ldp free p Hs (Z.to_nat (p_len p - 1 - ldl)) ldl B Hfree ltac:(lia) Hlen Hnr Hnth ltac:(fold u; lia) 33%nat ltac:(lia))
    as (g & m & mp & c & Eg & Lg & Em & Emp & Ec & Hrd).
  assert (Hw : w32 (p_last p - ldc) = p_last p - ldc) by (apply w32_id; lia).
  assert (En : rdz last (p_nr p) = Ok (p_last p)).
  { unfold rdz, rd. destruct (Z.ltb_spec (p_nr p) 0); [lia|]. rewrite Hnth. auto. }
  assert (Eoff : (2 ^ 32 - free) * 2 ^ p_len p / 2 ^ 32 - ldc - 1 = p_off p).
  { destruct (bf_div _ _ _ _ _ B (p_len p) ltac:(lia) ltac:(lia)) as (k & Hk). fold u in Hk.
    assert (E32 : 2 ^ 32 = 2 ^ p_len p * u) by (unfold u; rewrite <- pow2_add by lia; f_equal; lia).
    assert (Eo : 2 ^ 32 - free = (p_off p + ldc + 1) * u) by lia.
    rewrite Eo, <- Z.mul_assoc, (Z.mul_comm u), <- E32, Z.div_mul by lia. lia. }
  assert (Roff : 0 <= p_off p < 2 ^ 32).
  { pose proof (bf_room _ _ _ _ _ B (p_len p) ltac:(lia) ltac:(lia)) as R. fold u in R.
    pose proof (bf_free _ _ _ _ _ B). split; [nia|]. 
    assert (p_off p * u <= 2 ^ 32) by nia. assert (2 <= u) by (unfold u; change 2 with (2 ^ 1) at 1; apply pow2_le; lia). nia. }
  assert (n <> 0)%nat by lia. destruct n as [|n]; [lia|].
  cbn [describe]. rewrite Eg. cbn [bind]. rewrite Em. cbn [bind]. rewrite Emp. cbn [bind]. rewrite Ec. cbn [bind].
  rewrite En. cbn [bind]. rewrite Hw. fold u.
  destruct Hrd as [Hcs Hrd].
  destruct t as [|p' t].
  - cbn [describe bind]. exists (g ++ [c]). split; [auto|]. split; [rewrite app_length, Lg; cbn [length]; lia|].
    split; [auto|]. intros r tl Hro Hst.
    destruct (Hrd r tl Hro Hst) as (r1 & E1 & Hr1 & Hs1 & L1).
    exists r1. split; [|auto]. cbn [read_pools]. rewrite E1. cbn [bind].
    replace (w8 (ldp + (p_nr p - ldp))) with (p_nr p) by (rewrite w8_id by lia; lia).
    rewrite (last_at_ok last (p_nr p) (p_last p)) by (auto; lia). cbn [bind].
    rewrite Eoff. unfold guard. replace ((0 <=? p_off p) && (p_off p <? 2 ^ 32)) with true by (symmetry; apply andb_true_intro; lia).
    cbn [bind]. rewrite Hw. fold u. replace (free - (p_last p - ldc) * u) with 0 by (symmetry; apply Hend; auto).
    cbn [Z.eqb]. destruct p; reflexivity.
  - assert (Hlast31 : p_last p < 2 ^ 31).
    { cbn [table] in Ht. destruct Ht as (_ & _ & Hnth' & Hlast' & _). pose proof (S4 _ _ Hnth'). lia. }
    assert (Ei : i32_of (p_last p) = p_last p) by (unfold i32_of; destruct (Z.ltb_spec (p_last p) (2 ^ 31)); lia).
    rewrite Ei.
    destruct (IH (p_last p) (p_nr p) (p_len p) (free - (p_last p - ldc) * u) n B' Ht ltac:(discriminate) ltac:(lia))
      as (d & Ed & Ld & Hcd & Hd).
    rewrite Ed. cbn [bind]. exists (g ++ c :: d). split; [auto|].
    split; [rewrite app_length, Lg; cbn [length]; lia|].
    replace (g ++ c :: d) with ((g ++ [c]) ++ d) by (rewrite <- app_assoc; auto).
    split; [apply Forall_app; auto|]. intros r tl Hro Hst. rewrite codes_bits_app, <- app_assoc in Hst.
    destruct (Hrd r _ Hro Hst) as (r1 & E1 & Hr1 & Hs1 & L1).
    destruct (Hd r1 tl Hr1 Hs1) as (r2 & E2 & Hr2 & Hs2 & L2).
    exists r2. split; [|split; [auto|split; [auto|congruence]]].
    cbn [read_pools]. rewrite E1. cbn [bind].
    replace (w8 (ldp + (p_nr p - ldp))) with (p_nr p) by (rewrite w8_id by lia; lia).
    rewrite (last_at_ok last (p_nr p) (p_last p)) by (auto; lia). cbn [bind].
    rewrite Eoff. unfold guard. replace ((0 <=? p_off p) && (p_off p <? 2 ^ 32)) with true by (symmetry; apply andb_true_intro; lia).
    cbn [bind]. rewrite Hw. fold u.
    destruct (Z.eqb_spec (free - (p_last p - ldc) * u) 0) as [E0|E0].
    + exfalso. apply Hend in E0. discriminate.
    + rewrite Ei, E2. cbn [bind]. destruct p; reflexivity.
Qed.

(** ** Entries *)
Fixpoint pick (ps : list opool) (v : Z) : option opool :=
  match ps with [] => None | p :: t => if v <=? p_last p then Some p else pick t v end.

Lemma pick_first v : forall ps k p, nth_error ps k = Some p -> v <= p_last p ->
  (forall j q, (j < k)%nat -> nth_error ps j = Some q -> p_last q < v) -> pick ps v = Some p.
Proof.
  induction ps as [|q t IH]; intros k p Hn Hv Hlo; [destruct k; discriminate|]. cbn [pick].
  destruct k as [|k].
  - cbn in Hn. inversion Hn; subst. destruct (Z.leb_spec v (p_last p)); [auto|lia].
  - pose proof (Hlo 0%nat q ltac:(lia) eq_refl). destruct (Z.leb_spec v (p_last q)); [lia|].
    apply (IH k); auto. intros j q' Hj Hq. apply (Hlo (S j)); auto. lia.
Qed.

Lemma table_increasing last : forall ps ldc ldp ldl free, table last ps ldc ldp ldl free ->
  increasing (map p_last ps) /\ (forall p, In p ps -> ldc < p_last p).
Proof.
  induction ps as [|p t IH]; intros ldc ldp ldl free T.
  - split; [intros i j a b _ Ha; destruct i; discriminate | intros p []].
  - cbn [table] in T. destruct T as (_ & _ & _ & Hlast & _ & _ & Ht). destruct (IH _ _ _ _ Ht) as [I1 I2].
    split.
    + intros i j a b Hij Ha Hb. cbn [map] in *. destruct j as [|j]; [lia|]. cbn [nth_error] in Hb.
      destruct i as [|i]; cbn [nth_error] in Ha.
      * inversion Ha; subst. apply nth_error_In in Hb. apply in_map_iff in Hb. destruct Hb as (q & <- & Hq). auto.
      * apply (I1 i j); auto. lia.
    + intros q [<-|Hq]; [auto|]. specialize (I2 q Hq). lia.
Qed.

Lemma table_len last : forall ps ldc ldp ldl free, table last ps ldc ldp ldl free -> -1 <= ldp ->
  Z.of_nat (length ps) <= Z.max 0 (Z.of_nat (length last) - 1 - ldp).
Proof.
  induction ps as [|p t IH]; intros ldc ldp ldl free T Hp; cbn [length]; [lia|].
  cbn [table] in T. destruct T as (_ & Hnr & Hn & _ & _ & _ & Ht). specialize (IH _ _ _ _ Ht ltac:(lia)).
  assert (Z.to_nat (p_nr p) < length last)%nat by (apply nth_lt in Hn; auto). lia.
Qed.

Definition top (ps : list opool) : Z := p_last (List.last ps opool0).

Lemma find_pick last ps ldc ldp ldl free v : small_table last -> table last ps ldc ldp ldl free -> -1 <= ldp -> ps <> [] ->
  v <= top ps ->
  exists k p, find_pool (map p_last ps) v = Ok k /\ rdz ps k = Ok p /\ pick ps v = Some p.
Proof.
  intros Hs T Hp Hne Hv. destruct (table_increasing _ _ _ _ _ _ T) as [Hinc _].
  pose proof (table_len _ _ _ _ _ _ T Hp) as L. destruct Hs as (S1 & _).
  destruct (find_pool_ok (map p_last ps) v Hinc) as (k & E & (R & Lo & Hi)).
  { rewrite map_length. destruct ps; [congruence|]. cbn [length] in *. lia. }
  rewrite map_length in *.
  destruct (rdz_ok ps k R) as (p & Er & Hn). exists k, p. split; [auto|]. split; [auto|].
  apply (pick_first v ps (Z.to_nat k) p); auto.
  - destruct (Hi (p_last p)) as [|Elast]; [apply map_nth_error; auto|auto|].
    replace p with (List.last ps opool0); [exact Hv|].
    assert (Hl : nth_error ps (length ps - 1) = Some (List.last ps opool0)).
    { clear -Hne. induction ps as [|a t IH]; [congruence|]. destruct t as [|b t].
      - reflexivity.
      - cbn [length]. replace (S (S (length t)) - 1)%nat with (S (length (b :: t) - 1))%nat by (cbn [length]; lia).
        cbn [nth_error]. rewrite IH by discriminate. reflexivity. }
    replace (length ps - 1)%nat with (Z.to_nat k) in Hl by lia. congruence.
  - intros j q Hj Hq. apply (Lo j); auto. apply map_nth_error; auto.
Qed.

Lemma pick_bound last : forall ps ldc ldp ldl free v p, before last ldc ldp ldl free ->
  table last ps ldc ldp ldl free -> ldc < v -> pick ps v = Some p ->
  ldl < p_len p <= 31 /\ 2 ^ 32 - free <= (v + p_off p) * 2 ^ (32 - p_len p) /\ 0 <= v + p_off p < 2 ^ p_len p /\
  0 <= p_off p /\ v <= p_last p /\ 0 <= p_last p + p_off p < 2 ^ p_len p.
Proof.
  induction ps as [|q t IH]; intros ldc ldp ldl free v p B T Hv Hp; [discriminate|].
  pose proof (before_next _ _ _ _ _ _ _ B T) as B'.
  cbn [table] in T. destruct T as (Hlen & Hnr & Hnth & Hlast & Hoff & Hend & Ht).
  pose proof (bf_ldc _ _ _ _ _ B). pose proof (bf_free _ _ _ _ _ B') as F'. pose proof (bf_ldl _ _ _ _ _ B).
  cbn [pick] in Hp. destruct (Z.leb_spec v (p_last q)) as [Hle|Hgt].
  - inversion Hp; subst q; clear Hp. set (u := 2 ^ (32 - p_len p)) in *.
    assert (Pu : 0 < u) by (apply pow2_pos; lia).
    pose proof (bf_room _ _ _ _ _ B (p_len p) ltac:(lia) ltac:(lia)) as R. fold u in R.
    assert (E32 : 2 ^ 32 = 2 ^ p_len p * u) by (unfold u; rewrite <- pow2_add by lia; f_equal; lia).
    split; [lia|]. split; [nia|]. assert (0 <= p_off p) by nia.
    assert (HH : (p_last p + p_off p) * u < 2 ^ p_len p * u) by nia.
    apply Z.mul_lt_mono_pos_r in HH; auto. repeat split; lia.
  - destruct (IH _ _ _ _ v p B' Ht Hgt Hp) as (A1 & A2 & A3 & A4 & A5).
    split; [lia|]. split; [|split; [|split]]; auto.
    assert (0 < 2 ^ (32 - p_len q)) by (apply pow2_pos; lia). nia.
Qed.

Lemma read_more_ok last : forall ps ldc ldp ldl free v p, before last ldc ldp ldl free -> 0 <= ldl ->
  table last ps ldc ldp ldl free -> ldc < v -> pick ps v = Some p ->
  forall r tl, reader_ok r -> stream r = bits (Z.to_nat (p_len p - ldl)) (v + p_off p) ++ tl ->
  exists r', read_more r ((v + p_off p) / 2 ^ (p_len p - ldl)) ldl ps = Ok (v, r') /\ reader_ok r' /\ stream r' = tl
    /\ length (r_data r') = length (r_data r).
Proof.
  induction ps as [|q t IH]; intros ldc ldp ldl free v p B H0 T Hv Hp r tl Hr Hs; [discriminate|].
  destruct (pick_bound last _ _ _ _ _ v p B T Hv Hp) as (P1 & P2 & P3 & P4 & P5 & P6).
  pose proof (before_next _ _ _ _ _ _ _ B T) as B'.
  pose proof T as T0. cbn [table] in T. destruct T as (Hlen & Hnr & Hnth & Hlast & Hoff & Hend & Ht).
  pose proof (bf_ldc _ _ _ _ _ B) as Bc.
  assert (Hq : p_len q <= p_len p).
  { cbn [pick] in Hp. destruct (Z.leb_spec v (p_last q)); [inversion Hp; subst; lia|].
    destruct (pick_bound last _ _ _ _ _ v p B' Ht ltac:(lia) Hp) as (Q & _). lia. }
  set (c := v + p_off p) in *.
  set (push := p_len q - ldl). set (y := c / 2 ^ (p_len p - p_len q)).
  assert (Py : 0 < 2 ^ (p_len p - p_len q)) by (apply pow2_pos; lia).
  assert (Pp : 0 < 2 ^ push) by (apply pow2_pos; unfold push; lia).
  assert (Ry : 0 <= y < 2 ^ p_len q).
  { unfold y. split; [apply Z.div_pos; lia|]. apply Z.div_lt_upper_bound; auto. rewrite <- pow2_add by lia.
    replace (p_len p - p_len q + p_len q) with (p_len p) by lia. lia. }
  assert (Ex : c / 2 ^ (p_len p - ldl) = y / 2 ^ push).
  { unfold y. rewrite Z.div_div, <- pow2_add by (unfold push; lia). f_equal. f_equal. unfold push. lia. }
  rewrite Ex. cbn [read_more]. fold push.
  replace (Z.to_nat (p_len p - ldl)) with (Z.to_nat push + Z.to_nat (p_len p - p_len q))%nat in Hs by (unfold push; lia).
  rewrite bits_app, <- app_assoc, Z2Nat.id in Hs by lia. fold y in Hs.
  rewrite w8_id by (unfold push; lia).
  destruct (get_part r push y (y mod 2 ^ push) _ ltac:(unfold push; lia) Hr (Z.mod_pos_bound _ _ Pp)
             ltac:(symmetry; apply bits_mod; unfold push; lia) Hs) as (r1 & -> & Hr1 & Hs1 & L1).
  cbn [bind]. rewrite Z.shiftl_mul_pow2 by (unfold push; lia).
  pose proof (Z.div_mod y (2 ^ push) ltac:(lia)) as DM.
  pose proof (Z.mod_pos_bound y (2 ^ push) Pp) as MB.
  assert (2 ^ p_len q < 2 ^ 32) by (apply pow2_lt; lia).
  assert (0 <= y / 2 ^ push) by (apply Z.div_pos; lia).
  rewrite (w32_id (y / 2 ^ push * 2 ^ push)) by lia.
  replace (y / 2 ^ push * 2 ^ push + y mod 2 ^ push) with y by lia. rewrite (w32_id y) by lia.
  cbn [pick] in Hp. destruct (Z.leb_spec v (p_last q)) as [Hle|Hgt].
  - inversion Hp; subst q. rewrite Z.sub_diag in Hs1.
    assert (Eyc : y = c) by (unfold y; rewrite Z.sub_diag, Z.pow_0_r, Z.div_1_r; auto). rewrite Eyc.
    rewrite w32_id by lia. destruct (Z.leb_spec c (p_last p + p_off p)); [|unfold c in *; lia].
    replace (c - p_off p) with v by (unfold c; lia).
    assert (v < 2 ^ 32) by (unfold c in *; lia). rewrite (w32_id v) by lia.
    cbn [Z.to_nat bits app] in Hs1. exists r1. auto.
  - destruct (pick_bound last _ _ _ _ _ v p B' Ht ltac:(lia) Hp) as (Q1 & Q2 & _).
    assert (Hq6 : 0 <= p_last q + p_off q < 2 ^ p_len q).
    { assert (X : pick (q :: t) (p_last q) = Some q) by (cbn [pick]; destruct (Z.leb_spec (p_last q) (p_last q)); [auto|lia]).
      destruct (pick_bound last _ _ _ _ _ (p_last q) q B T0 ltac:(lia) X) as (_ & _ & _ & _ & _ & X6). auto. }
    rewrite w32_id by lia.
    assert (Hy : p_last q + p_off q + 1 <= y).
    { unfold y. apply Z.div_le_lower_bound; auto.
      set (uq := 2 ^ (32 - p_len q)) in *. set (up := 2 ^ (32 - p_len p)) in *.
      assert (Pup : 0 < up) by (apply pow2_pos; lia).
      assert (Euq : uq = 2 ^ (p_len p - p_len q) * up).
      { unfold uq, up. rewrite <- pow2_add by lia. f_equal. lia. }
      assert ((p_last q + p_off q + 1) * uq = 2 ^ 32 - (free - (p_last q - ldc) * uq)) by lia.
      assert (HH : 2 ^ (p_len p - p_len q) * (p_last q + p_off q + 1) * up <= c * up).
      { rewrite Euq in *. unfold c. lia. }
      apply Z.mul_le_mono_pos_r in HH; auto. }
    destruct (Z.leb_spec y (p_last q + p_off q)); [lia|].
    destruct (IH _ _ _ _ v p B' ltac:(lia) Ht ltac:(lia) Hp r1 tl Hr1 Hs1) as (r2 & E2 & Hr2 & Hs2 & L2).
    fold c in E2. fold y in E2. rewrite E2. exists r2. repeat split; auto; try apply Hr2. congruence.
Qed.

Lemma seven_pow2 s len : 0 <= len <= 31 -> seven_of_nine s (2 ^ len) = Ok (len, s).
Proof.
  intros Hl. unfold seven_of_nine.
  assert (P : 0 < 2 ^ len) by (apply pow2_pos; lia).
  rewrite (find4 (2 ^ len) len); try lia.
  2: { destruct (Z.eq_dec len 0); [left; auto|right]. apply pow2_lt. lia. }
  cbn [bind]. rewrite pow2i_ok by lia. cbn [bind].
  replace (2 ^ len - 2 ^ len + 1) with 1 by lia. reflexivity.
Qed.

Lemma start_before last first : 0 <= first <= 31 -> before last (-1) (-1) (first - 1) (2 ^ 32).
Proof.
  intros H. constructor; try lia.
  - intros len H1 H2. exists (2 ^ len). rewrite <- pow2_add by lia. f_equal. lia.
Qed.

(** a complete table from its first length *)
Definition complete (last : list Z) (ps : list opool) : Prop :=
  match ps with
  | [] => False
  | p :: _ => 0 <= p_len p /\ table last ps (-1) (-1) (p_len p - 1) (2 ^ 32)
  end.

Lemma entry_code_ok last ps v : small_table last -> complete last ps -> 0 <= v <= top ps ->
  exists p, entry_code ps v = Ok (p_len p, v + p_off p) /\ pick ps v = Some p /\ is_code (p_len p, v + p_off p) /\ p_len p <= 31.
Proof.
  intros Hs Hc Hv. destruct ps as [|q t]; [destruct Hc|]. destruct Hc as (Hq & T).
  assert (Hq31 : p_len q <= 31) by (cbn [table] in T; lia).
  pose proof (start_before last (p_len q) ltac:(lia)) as B.
  destruct (find_pick last _ _ _ _ _ v Hs T ltac:(lia) ltac:(discriminate) ltac:(lia)) as (k & p & E & Er & Hp).
  destruct (pick_bound last _ _ _ _ _ v p B T ltac:(lia) Hp) as (P1 & P2 & P3 & P4 & P5 & P6).
  exists p. unfold entry_code. rewrite E. cbn [bind]. rewrite Er. cbn [bind]. rewrite pow2i_ok by lia. cbn [bind].
  pose proof (pow2_le (p_len p) 31 ltac:(lia)). assert (2 ^ 31 < 2 ^ 32) by reflexivity.
  rewrite w32_id by lia. rewrite seven_pow2 by lia. repeat split; auto; cbn [fst snd]; lia.
Qed.

Lemma read_entry_ok last ps v : small_table last -> complete last ps -> 0 <= v <= top ps ->
  exists c, entry_code ps v = Ok c /\ is_code c /\ fst c <= 31 /\ reads (fun r => read_entry r ps true) [c] v.
Proof.
  intros Hs Hc Hv. destruct (entry_code_ok last ps v Hs Hc Hv) as (p & E & Hp & Hcode & H31).
  exists (p_len p, v + p_off p). split; [auto|]. split; [auto|]. split; [auto|]. split; [repeat constructor; apply Hcode|].
  intros r rest Hr Hst. cbn [codes_bits flat_map] in Hst. rewrite app_nil_r in Hst. unfold code_bits in Hst. cbn [fst snd] in Hst.
  destruct ps as [|q t]; [destruct Hc|]. destruct Hc as (Hq & T).
  assert (Hq31 : p_len q <= 31) by (cbn [table] in T; lia).
  pose proof (start_before last (p_len q) ltac:(lia)) as B.
  destruct (pick_bound last _ _ _ _ _ v p B T ltac:(lia) Hp) as (P1 & P2 & P3 & P4 & P5 & P6).
  pose proof (before_next _ _ _ _ _ _ _ B T) as B'.
  cbn [table] in T. destruct T as (Hlen & Hnr & Hnth & Hlast & Hoff & Hend & Ht).
  assert (Hoff0 : p_off q = 0).
  { assert (0 < 2 ^ (32 - p_len q)) by (apply pow2_pos; lia). nia. }
  unfold read_entry.
  set (c := v + p_off p) in *. set (y := c / 2 ^ (p_len p - p_len q)).
  assert (Py : 0 < 2 ^ (p_len p - p_len q)) by (apply pow2_pos; lia).
  assert (Ry : 0 <= y < 2 ^ p_len q).
  { unfold y. split; [apply Z.div_pos; lia|]. apply Z.div_lt_upper_bound; auto. rewrite <- pow2_add by lia.
    replace (p_len p - p_len q + p_len q) with (p_len p) by lia. lia. }
  replace (Z.to_nat (p_len p)) with (Z.to_nat (p_len q) + Z.to_nat (p_len p - p_len q))%nat in Hst by lia.
  rewrite bits_app, <- app_assoc, Z2Nat.id in Hst by lia. fold y in Hst.
  unfold rd. cbn [nth_error bind List.tl].
  destruct (get_part r (p_len q) y y _ ltac:(lia) Hr Ry eq_refl Hst) as (r1 & -> & Hr1 & Hs1 & L1).
  cbn [bind]. cbn [pick] in Hp. destruct (Z.leb_spec v (p_last q)) as [Hle|Hgt].
  - inversion Hp; subst q. rewrite Z.sub_diag in Hs1.
    assert (Eyc : y = v) by (unfold y, c; rewrite Z.sub_diag, Z.pow_0_r, Z.div_1_r; lia). rewrite Eyc.
    destruct (Z.ltb_spec (p_last p) v); [lia|]. cbn [Z.to_nat bits app] in Hs1. exists r1. auto.
  - destruct (pick_bound last _ _ _ _ _ v p B' Ht ltac:(lia) Hp) as (Q1 & Q2 & _).
    assert (Hy : p_last q + 1 <= y).
    { unfold y. apply Z.div_le_lower_bound; auto.
      set (uq := 2 ^ (32 - p_len q)) in *. set (up := 2 ^ (32 - p_len p)) in *.
      assert (Pup : 0 < up) by (apply pow2_pos; lia).
      assert (Euq : uq = 2 ^ (p_len p - p_len q) * up).
      { unfold uq, up. rewrite <- pow2_add by lia. f_equal. lia. }
      assert (HH : 2 ^ (p_len p - p_len q) * (p_last q + 1) * up <= c * up).
      { rewrite Euq in *. unfold c. lia. }
      apply Z.mul_le_mono_pos_r in HH; auto. }
    destruct (Z.ltb_spec (p_last q) y); [|lia].
    destruct (read_more_ok last _ _ _ _ _ v p B' ltac:(lia) Ht ltac:(lia) Hp r1 rest Hr1 Hs1) as (r2 & E2 & Hr2 & Hs2 & L2).
    fold c in E2. fold y in E2. rewrite E2. exists r2. repeat split; auto; try apply Hr2. congruence.
Qed.
