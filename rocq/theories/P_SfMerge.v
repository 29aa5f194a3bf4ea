(** * P_SfMerge: complete code lengths give a complete table *)
Require Import List ZArith Lia Bool ZifyBool.
Import ListNotations.
From Verif Require Import M_Base P_Base M_Archive M_Sf S_Sf P_Sf M_SfCodec P_SfTable.
Open Scope Z_scope.

Lemma before_step last ldc ldp ldl free len b nr : before last ldc ldp ldl free ->
  ldl < len <= 31 -> ldp < nr -> nth_error last (Z.to_nat nr) = Some b -> ldc < b ->
  0 <= free - (b - ldc) * 2 ^ (32 - len) ->
  before last b nr len (free - (b - ldc) * 2 ^ (32 - len)).
Proof.
  intros [B1 B2 B3 B4 B5 B6 B7] Hlen Hnr Hn Hlast Hf.
  set (u := 2 ^ (32 - len)) in *.
  assert (Pu : 0 < u) by (apply pow2_pos; lia).
  destruct (B6 len ltac:(lia) ltac:(lia)) as (k & Hk). fold u in Hk.
  pose proof (B7 len ltac:(lia) ltac:(lia)) as Hroom. fold u in Hroom.
  constructor; try lia.
  - right. split; [lia|auto].
  - split; [lia|nia].
  - intros len' Hl1 Hl2.
    exists ((k - (b - ldc)) * 2 ^ (len' - len)).
    replace (2 ^ (len' - len)) with (2 ^ ((32 - len) - (32 - len'))) by (f_equal; lia).
    rewrite <- Z.mul_assoc, <- pow_split by lia. fold u. lia.
  - intros len' Hl1 Hl2.
    assert (2 ^ (32 - len') <= u) by (apply pow2_le; lia).
    assert (0 < 2 ^ (32 - len')) by (apply pow2_pos; lia). nia.
Qed.

Definition offset' (prev : option opool) (len : Z) : Z :=
  match prev with None => 0 | Some p => offset_after p len end.
Fixpoint merge' (pp : option opool) (len cl prev nr : Z) (l : list (Z * Z)) : list opool :=
  match l with
  | [] => [Opool len prev (offset' pp len) nr]
  | (last, cl') :: t =>
      if cl <? cl'
      then let p := Opool len prev (offset' pp len) nr in
           p :: merge' (Some p) cl' cl' last (nr + 1) t
      else merge' pp len cl' last (nr + 1) t
  end.
Lemma merge_front : forall l done len cl prev nr,
  merge done len cl prev nr l = rev done ++ merge' (hd_error done) len cl prev nr l.
Proof.
  induction l as [|[b c] t IH]; intros done len cl prev nr; cbn [merge merge'].
  - cbn [rev]. destruct done; reflexivity.
  - destruct (cl <? c); rewrite IH.
    + cbn [rev hd_error]. rewrite <- app_assoc. destruct done; reflexivity.
    + reflexivity.
Qed.
Lemma merge'_ne : forall l pp len cl prev nr, merge' pp len cl prev nr l <> [].
Proof. induction l as [|[b c] t IH]; intros; cbn [merge']; [discriminate|]. destruct (cl <? c); [discriminate|auto]. Qed.

(** what the codes of the pools [l] after the border [prev] take *)
Fixpoint kraft (prev : Z) (l : list (Z * Z)) : Z :=
  match l with [] => 0 | (b, c) :: t => (b - prev) * 2 ^ (32 - c) + kraft b t end.

(** pools of the list [last] from number [nr] on, with lengths that do not fall *)
Fixpoint good (last : list Z) (nr prev c0 : Z) (l : list (Z * Z)) : Prop :=
  match l with
  | [] => True
  | (b, c) :: t => nth_error last (Z.to_nat nr) = Some b /\ prev < b /\ c0 <= c <= 31 /\ good last (nr + 1) b c t
  end.
Lemma kraft_nonneg last : forall l nr prev c0, good last nr prev c0 l -> 0 <= kraft prev l /\ (l <> [] -> 0 < kraft prev l).
Proof.
  induction l as [|[b c] t IH]; intros nr prev c0 H; cbn [kraft good] in *; [split; [lia|congruence]|].
  destruct H as (_ & Hb & Hc & Ht). destruct (IH _ _ _ Ht) as [H1 _].
  assert (0 < 2 ^ (32 - c)) by (apply pow2_pos; lia). split; intros; nia.
Qed.

Definition pv (pp : option opool) (ldc ldl free : Z) : Prop :=
  match pp with
  | None => ldc = -1 /\ free = 2 ^ 32
  | Some p => p_last p = ldc /\ p_len p = ldl /\ 0 <= ldl /\ 0 <= p_off p /\
              (p_off p + p_last p + 1) * 2 ^ (32 - ldl) = 2 ^ 32 - free
  end.

Lemma offset_spec last pp ldc ldp ldl free len : pv pp ldc ldl free -> before last ldc ldp ldl free ->
  ldl < len <= 31 -> 0 <= len -> ldc <= 2 ^ 31 ->
  0 <= offset' pp len /\ offset' pp len * 2 ^ (32 - len) = 2 ^ 32 - free - (ldc + 1) * 2 ^ (32 - len).
Proof.
  intros Hp B Hl H0 Hm. destruct pp as [p|]; cbn [pv offset'] in *.
  2: { destruct Hp as (-> & ->). lia. }
  destruct Hp as (El & En & Hn & Ho & E). unfold offset_after. rewrite El, En in *.
  pose proof (bf_ldc _ _ _ _ _ B). pose proof (bf_free _ _ _ _ _ B).
  pose proof (bf_room _ _ _ _ _ B len ltac:(lia) H0) as R.
  set (x := p_off p + ldc + 1) in *.
  assert (P1 : 0 < 2 ^ (32 - ldl)) by (apply pow2_pos; lia).
  assert (P2 : 0 < 2 ^ (32 - len)) by (apply pow2_pos; lia).
  assert (P3 : 0 < 2 ^ (len - ldl)) by (apply pow2_pos; lia).
  assert (Es : 2 ^ (32 - ldl) = 2 ^ (len - ldl) * 2 ^ (32 - len)) by (rewrite <- pow2_add by lia; f_equal; lia).
  assert (Ew : 2 ^ 32 = 2 ^ len * 2 ^ (32 - len)) by (rewrite <- pow2_add by lia; f_equal; lia).
  assert (Hlen : 2 ^ len <= 2 ^ 31) by (apply pow2_le; lia).
  assert (E' : x * 2 ^ (len - ldl) * 2 ^ (32 - len) = 2 ^ 32 - free) by (rewrite <- Z.mul_assoc, <- Es; auto).
  assert (Hx : x * 2 ^ (len - ldl) <= 2 ^ len).
  { apply (Z.mul_le_mono_pos_r _ _ (2 ^ (32 - len)) P2). lia. }
  assert (Hx0 : 0 <= x) by (unfold x; lia).
  assert (2 ^ 31 < 2 ^ 32) by reflexivity.
  assert (x <= x * 2 ^ (len - ldl)) by nia.
  assert (Hge : ldc + 1 <= x * 2 ^ (len - ldl)).
  { apply (Z.mul_le_mono_pos_r _ _ (2 ^ (32 - len)) P2). lia. }
  rewrite (w32_id x) by lia. rewrite Z.shiftl_mul_pow2 by lia.
  rewrite (w32_id (x * _)) by lia. rewrite (w32_id (ldc + 1)) by lia. rewrite w32_id by lia.
  split; [lia|]. rewrite Z.mul_sub_distr_r. lia.
Qed.

Lemma merge_table last : small_table last -> forall l pp len prev nr ldc ldp ldl free,
  before last ldc ldp ldl free -> pv pp ldc ldl free ->
  ldl < len <= 31 -> 0 <= len -> ldp < nr -> 0 <= nr -> nth_error last (Z.to_nat nr) = Some prev -> ldc < prev ->
  good last (nr + 1) prev len l ->
  free = (prev - ldc) * 2 ^ (32 - len) + kraft prev l ->
  table last (merge' pp len len prev nr l) ldc ldp ldl free /\
  p_last (List.last (merge' pp len len prev nr l) opool0) = List.last (map fst l) prev /\
  p_len (hd opool0 (merge' pp len len prev nr l)) = len.
Proof.
  intros Hs. induction l as [|[b c] t IH]; intros pp len prev nr ldc ldp ldl free B P Hl H0 Hp Hn0 Hn Hc G F.
  - cbn [merge' kraft map List.last hd p_last p_len] in *.
    assert (ldc <= 2 ^ 31).
    { destruct (bf_at _ _ _ _ _ B) as [(_ & ->)|(_ & X)]; [lia|]. apply Hs in X. lia. }
    destruct (offset_spec last pp ldc ldp ldl free len P B Hl H0 ltac:(auto)) as (O1 & O2).
    split; [|split; reflexivity]. cbn [table p_len p_nr p_last p_off]. repeat split; intros; auto; lia.
  - cbn [good kraft] in G, F. destruct G as (Hb & Hbp & Hcc & G).
    cbn [merge']. destruct (Z.ltb_spec len c) as [L|L].
    + assert (ldc <= 2 ^ 31).
      { destruct (bf_at _ _ _ _ _ B) as [(_ & ->)|(_ & X)]; [lia|]. apply Hs in X. lia. }
      destruct (offset_spec last pp ldc ldp ldl free len P B Hl H0 ltac:(auto)) as (O1 & O2).
      set (p := Opool len prev (offset' pp len) nr).
      destruct (kraft_nonneg last _ _ _ _ G) as [K _].
      assert (Pc : 0 < 2 ^ (32 - c)) by (apply pow2_pos; lia).
      assert (Pp : 0 < 2 ^ (32 - len)) by (apply pow2_pos; lia).
      assert (Hpos : 0 < (b - prev) * 2 ^ (32 - c)) by nia.
      assert (Ef : free - (prev - ldc) * 2 ^ (32 - len) = (b - prev) * 2 ^ (32 - c) + kraft b t) by lia.
      assert (B' : before last prev nr len (free - (prev - ldc) * 2 ^ (32 - len))).
      { apply (before_step last ldc ldp ldl); auto; lia. }
      assert (P' : pv (Some p) prev len (free - (prev - ldc) * 2 ^ (32 - len))).
      { cbn [pv p p_last p_len p_off]. unfold p. cbn [p_last p_len p_off]. repeat split; auto.
        rewrite !Z.mul_add_distr_r, O2. lia. }
      destruct (IH (Some p) c b (nr + 1) prev nr len _ B' P' ltac:(lia) ltac:(lia) ltac:(lia) ltac:(lia) Hb Hbp G Ef)
        as (I1 & I2 & I3).
      split; [|split].
      * cbn [table]. change (p_len p) with len. change (p_last p) with prev.
        change (p_nr p) with nr. change (p_off p) with (offset' pp len).
        split; [lia|]. split; [lia|]. split; [auto|]. split; [auto|]. split; [auto|]. split.
        { split; intros X; [apply merge'_ne in X; destruct X|lia]. }
        exact I1.
      * cbn [map fst]. pose proof (merge'_ne t (Some p) c c b (nr + 1)) as NE.
        destruct (merge' (Some p) c c b (nr + 1) t) as [|q qs] eqn:E; [congruence|].
        change (List.last (p :: q :: qs) opool0) with (List.last (q :: qs) opool0). rewrite I2.
        destruct (map fst t) as [|d ds]; [reflexivity|].
        change (List.last (b :: d :: ds) prev) with (List.last (d :: ds) prev).
        clear. revert d. induction ds as [|e es IHe]; intros d; [reflexivity|].
        change (List.last (d :: e :: es) b) with (List.last (e :: es) b).
        change (List.last (d :: e :: es) prev) with (List.last (e :: es) prev). auto.
      * reflexivity.
    + assert (c = len) by lia. subst c.
      destruct (IH pp len b (nr + 1) ldc ldp ldl free B P Hl H0 ltac:(lia) ltac:(lia) Hb ltac:(lia) G ltac:(lia))
        as (I1 & I2 & I3).
      split; [auto|]. split; [|auto]. rewrite I2. cbn [map fst].
      destruct (map fst t) as [|d ds]; [reflexivity|].
      change (List.last (b :: d :: ds) prev) with (List.last (d :: ds) prev).
      clear. revert d. induction ds as [|e es IHe]; intros d; [reflexivity|].
      change (List.last (d :: e :: es) b) with (List.last (e :: es) b).
      change (List.last (d :: e :: es) prev) with (List.last (e :: es) prev). auto.
Qed.

(** ** Complete code lengths *)
Definition complete_lens (last lens : list Z) : Prop :=
  (0 < length lens <= length last)%nat /\
  good last 0 (-1) 0 (combine last lens) /\
  kraft (-1) (combine last lens) = 2 ^ 32.

Lemma last_indep {A} (l : list A) a b : l <> [] -> List.last l a = List.last l b.
Proof.
  induction l as [|x t IH]; [congruence|]. intros _. destruct t as [|y t]; [reflexivity|].
  change (List.last (x :: y :: t) a) with (List.last (y :: t) a).
  change (List.last (x :: y :: t) b) with (List.last (y :: t) b). apply IH. discriminate.
Qed.
Lemma last_nth (l : list Z) d : l <> [] -> nth_error l (length l - 1) = Some (List.last l d).
Proof.
  induction l as [|a t IH]; [congruence|]. intros _. destruct t as [|b t]; [reflexivity|].
  cbn [length]. replace (S (S (length t)) - 1)%nat with (S (length (b :: t) - 1))%nat by (cbn [length]; lia).
  cbn [nth_error]. rewrite IH by discriminate. reflexivity.
Qed.
Lemma map_fst_combine {A B} : forall (a : list A) (b : list B), (length b <= length a)%nat ->
  map fst (combine a b) = firstn (length b) a.
Proof.
  induction a as [|x a IH]; intros [|y b] H; cbn [length combine map firstn fst] in *; try lia; auto.
  rewrite IH by lia. auto.
Qed.

Lemma out_pools_ok last lens : small_table last -> complete_lens last lens ->
  exists ps, out_pools last lens = Ok ps /\ complete last ps /\
    nth_error last (length lens - 1) = Some (top ps) /\
    nth_error lens 0 = Some (p_len (hd opool0 ps)).
Proof.
  intros Hs (Hlen & Hg & Hk). unfold out_pools.
  destruct last as [|b last]; [cbn [length] in Hlen; lia|].
  destruct lens as [|cl lens]; [cbn [length] in Hlen; lia|].
  assert (Hm : map fst (combine (b :: last) (cl :: lens)) = firstn (length (cl :: lens)) (b :: last))
    by (apply map_fst_combine; lia).
  cbn [combine] in *. set (t := combine last lens) in *. cbn [good kraft] in Hg, Hk.
  destruct Hg as (Hb & Hbp & Hcl & Hg). cbn [Z.to_nat nth_error] in Hb.
  exists (merge [] cl cl b 0 t). split; [auto|]. rewrite merge_front. cbn [rev app hd_error].
  destruct (merge_table (b :: last) Hs t None cl b 0 (-1) (-1) (cl - 1) (2 ^ 32)) as (M1 & M2 & M3); auto; try lia.
  - apply start_before. lia.
  - cbn. auto.
  - split; [|split].
    + unfold complete. pose proof (merge'_ne t None cl cl b 0). destruct (merge' None cl cl b 0 t) as [|p q] eqn:E; [congruence|].
      cbn [hd] in M3. rewrite M3. split; [lia|auto].
    + unfold top. rewrite M2. cbn [map fst] in Hm.
      assert (E : List.last (b :: map fst t) b = List.last (map fst t) b) by (destruct (map fst t); reflexivity).
      rewrite <- E, Hm.
      set (n := length (cl :: lens)) in *. set (l := b :: last) in *.
      assert (L : length (firstn n l) = n) by (rewrite firstn_length; lia).
      assert (NE : firstn n l <> []) by (intros X; rewrite X in L; cbn [length] in L; lia).
      pose proof (last_nth _ b NE) as N. rewrite L in N. rewrite <- N.
      rewrite <- (firstn_skipn n l) at 1. rewrite nth_error_app1; auto. lia.
    + cbn [nth_error]. congruence.
Qed.

Lemma small0 : small_table last0.
Proof.
  split; [vm_compute; lia|]. split; [apply (tables_increasing last0); left; reflexivity|].
  assert (K : forallb (fun p => snd p <=? fst p) (combine last0 last1) = true) by (vm_compute; reflexivity).
  assert (K2 : forallb (fun a => (0 <=? a) && (a <=? 2 ^ 31)) last0 = true) by (vm_compute; reflexivity).
  rewrite forallb_forall in K, K2. split.
  - intros i a b Ha Hb. assert (In (a, b) (combine last0 last1)).
    { revert Ha Hb. clear. generalize last0 last1. intros l; revert i.
      induction l as [|x l IH]; intros [|i] [|y m] Ha Hb; cbn [nth_error combine] in *; try discriminate.
      - inversion Ha; inversion Hb. left; auto.
      - right. eauto. }
    apply K in H. cbn [fst snd] in H. lia.
  - intros i a Ha. apply nth_error_In, K2 in Ha. lia.
Qed.
Lemma small1 : small_table last1.
Proof.
  split; [vm_compute; lia|]. split; [apply last1_inc|].
  assert (K2 : forallb (fun a => (0 <=? a) && (a <=? 2 ^ 31)) last1 = true) by (vm_compute; reflexivity).
  rewrite forallb_forall in K2. split.
  - intros i a b Ha Hb. assert (a = b) by congruence. lia.
  - intros i a Ha. apply nth_error_In, K2 in Ha. lia.
Qed.
