(** * P_SfCodec: Compress then Decompress *)
Require Import List ZArith Lia Bool ZifyBool.
Import ListNotations.
From Verif Require Import M_Base P_Base M_Archive M_Sf S_Sf P_Sf M_SfCodec S_SfCodec P_SfTable P_SfMerge.
Open Scope Z_scope.

(** ** Readers one after the other *)
Lemma reads_ret {A} (a : A) : reads (fun r => Ok (a, r)) [] a.
Proof. split; [constructor|]. intros r rest Hr Hs. exists r. auto. Qed.
Lemma reads_bind {A B} (f : reader -> res (A * reader)) (g : A -> reader -> res (B * reader)) ca a cb b :
  reads f ca a -> reads (g a) cb b ->
  reads (fun r => let* (x, r1) := f r in g x r1) (ca ++ cb) b.
Proof.
  intros [F1 F2] [G1 G2]. split; [apply Forall_app; auto|]. intros r rest Hr Hs.
  rewrite codes_bits_app, <- app_assoc in Hs.
  destruct (F2 r _ Hr Hs) as (r1 & -> & Hr1 & Hs1 & L1). cbn [bind].
  destruct (G2 r1 rest Hr1 Hs1) as (r2 & E2 & Hr2 & Hs2 & L2). exists r2. repeat split; auto; try apply Hr2. congruence.
Qed.
Lemma reads_bits n v : 0 <= n <= 32 -> 0 <= v < 2 ^ n -> reads (fun r => get_bits r n) [(n, v)] v.
Proof.
  intros Hn Hv. split; [repeat constructor; cbn [fst snd]; lia|]. intros r rest Hr Hs.
  apply (get_code r (n, v) rest); auto; [split; cbn [fst snd]; lia|].
  cbn [codes_bits flat_map] in Hs. rewrite app_nil_r in Hs. auto.
Qed.

(** ** What the reader uses for a table *)
Definition read_as (ps : list opool) : list opool * bool :=
  if p_len (hd opool0 ps) =? 0 then ([opool0], false) else (ps, true).

Lemma complete_zero last ps : small_table last -> complete last ps -> p_len (hd opool0 ps) = 0 -> top ps = 0.
Proof.
  intros Hs Hc H0. destruct ps as [|p t]; [destruct Hc|]. destruct Hc as (_ & T). cbn [hd] in H0.
  pose proof (start_before last (p_len p) ltac:(lia)) as B.
  pose proof (before_next _ _ _ _ _ _ _ B T) as B'. pose proof (bf_free _ _ _ _ _ B') as F.
  cbn [table] in T. destruct T as (Hlen & Hnr & Hn & Hlast & Hoff & Hend & Ht).
  rewrite H0 in *. change (32 - 0) with 32 in *.
  assert (p_last p = 0) by lia. assert (t = []) by (apply Hend; lia). subst t. unfold top. cbn [List.last]. auto.
Qed.

Lemma read_entry_as last ps v : small_table last -> complete last ps -> 0 <= v <= top ps ->
  exists c, entry_code ps v = Ok c /\ fst c <= 31 /\
    reads (fun r => read_entry r (fst (read_as ps)) (snd (read_as ps))) [c] v /\
    (p_len (hd opool0 ps) = 0 -> reads (fun r => read_entry r (fst (read_as ps)) (snd (read_as ps))) [] v).
Proof.
  intros Hs Hc Hv. destruct (read_entry_ok last ps v Hs Hc Hv) as (c & E & Hcode & H31 & R).
  exists c. split; [auto|]. split; [auto|]. unfold read_as.
  destruct (Z.eqb_spec (p_len (hd opool0 ps)) 0) as [H0|H0]; cbn [fst snd]; [|split; [auto|lia]].
  pose proof (complete_zero last ps Hs Hc H0) as T0. assert (v = 0) by lia. subst v.
  destruct (entry_code_ok last ps 0 Hs Hc Hv) as (p & E' & Hp & Hc' & _).
  assert (Hl0 : p_len p = 0).
  { destruct ps as [|q t]; [destruct Hc|]. cbn [pick] in Hp. cbn [hd] in H0.
    destruct (Z.leb_spec 0 (p_last q)); [inversion Hp; subst; auto|].
    destruct Hc as (_ & T). cbn [table] in T. lia. }
  assert (Ec : c = (0, 0 + p_off p)) by congruence.
  assert (R0 : reads (fun r => read_entry r [opool0] false) [] 0).
  { split; [constructor|]. intros r rest Hr Hst. exists r. auto. }
  split; [|auto]. destruct R0 as [_ R0]. split; [repeat constructor; auto; apply Hcode|].
  intros r rest Hr Hst. apply R0; auto. rewrite Ec in Hst. exact Hst.
Qed.

Lemma description_reads last ps : small_table last -> complete last ps ->
  exists d, description last ps = Ok d /\ (length d <= 32)%nat /\ Forall (fun c => fst c <= 32) d /\
    reads (fun r => read_table last [opool0] (p_len (hd opool0 ps)) r) d (read_as ps).
Proof.
  intros Hs Hc. destruct ps as [|p t]; [destruct Hc|]. destruct Hc as (H0 & T).
  assert (H31 : p_len p <= 31) by (cbn [table] in T; lia).
  unfold description, rd, read_table, read_as. cbn [nth_error bind hd].
  destruct (Z.leb_spec 0 (p_len p - 1)) as [L|L].
  - destruct (Z.eqb_spec (p_len p) 0); [lia|].
    destruct (describe_reads last Hs (p :: t) (-1) (-1) (p_len p - 1) (2 ^ 32) (length last)) as (d & E & Hl & R); auto.
    + apply start_before. lia.
    + discriminate.
    + lia.
    + exists d. split; [auto|]. split; [lia|]. destruct R as [R1 R2].
      split; [eapply Forall_impl; [|apply R1]; intros c [? _]; lia|].
      split; [auto|]. intros r rest Hr Hst. destruct (R2 r rest Hr Hst) as (r' & -> & H). exists r'. auto.
  - destruct (Z.eqb_spec (p_len p) 0); [|lia]. exists []. repeat split; auto; cbn [length]; try lia.
    intros r rest Hr Hst. exists r. auto.
Qed.

(** ** Values *)
Definition dec_word (fl : Z) (v : word) : word :=
  match to_bf16 fl v with
  | Ok (e, s, f) => sf_value (s =? 1) fl e (f - s * 2 ^ fl)
  | _ => v
  end.

Lemma word_bits (w : word) : 0 <= wbits w < 2 ^ 32.
Proof. destruct w as [z H]. cbn [wbits]. apply andb_prop in H. lia. Qed.

Lemma bf16_ok fl v : 7 <= fl <= 23 -> is_zero v = false ->
  exists e s f, to_bf16 fl v = Ok (e, s, f + s * 2 ^ fl) /\ byte e /\ (s = 0 \/ s = 1) /\ 0 <= f < 2 ^ fl.
Proof.
  intros Hfl Hz. unfold to_bf16. rewrite Hz. pose proof (word_bits v) as Hb. set (z := wbits v) in *.
  rewrite pow2i_ok by lia. cbn [bind].
  set (e := w32 (Z.shiftl z 1) / 2 ^ 24). set (f := w32 (Z.shiftl z 9) / 2 ^ (32 - fl)).
  assert (He : 0 <= e <= 255).
  { unfold e, w32. pose proof (Z.mod_pos_bound (Z.shiftl z 1) (2 ^ 32) ltac:(lia)) as M.
    split; [apply Z.div_pos; lia|]. apply Z.lt_succ_r. apply Z.div_lt_upper_bound; lia. }
  assert (Pf : 0 < 2 ^ fl) by (apply pow2_pos; lia).
  assert (Hf : 0 <= f < 2 ^ fl).
  { unfold f, w32. pose proof (Z.mod_pos_bound (Z.shiftl z 9) (2 ^ 32) ltac:(lia)) as M.
    assert (0 < 2 ^ (32 - fl)) by (apply pow2_pos; lia).
    split; [apply Z.div_pos; lia|]. apply Z.div_lt_upper_bound; auto. rewrite <- pow2_add by lia.
    replace (32 - fl + fl) with 32 by lia. lia. }
  assert (Hs : z / 2 ^ 31 = 0 \/ z / 2 ^ 31 = 1).
  { assert (0 <= z / 2 ^ 31 < 2); [|lia]. split; [apply Z.div_pos; lia|apply Z.div_lt_upper_bound; lia]. }
  assert (Ew : w32 (Z.shiftl (z / 2 ^ 31) fl) = z / 2 ^ 31 * 2 ^ fl).
  { rewrite Z.shiftl_mul_pow2 by lia. apply w32_id.
    assert (2 ^ fl <= 2 ^ 23) by (apply pow2_le; lia). assert (2 ^ 23 < 2 ^ 32) by reflexivity. nia. }
  rewrite Ew. clearbody e f.
  destruct ((fl <? 23) && (w32 (Z.shiftl z (9 + fl)) / 2 ^ 31 =? 1)).
  - destruct (Z.eqb_spec (f + 1) (2 ^ fl)).
    + exists (if e <? 255 then e + 1 else e), (z / 2 ^ 31), 0. split; [reflexivity|].
      unfold byte. repeat split; auto; try lia; destruct (Z.ltb_spec e 255); lia.
    + exists e, (z / 2 ^ 31), (f + 1). split; [reflexivity|]. unfold byte. repeat split; auto; lia.
  - exists e, (z / 2 ^ 31), f. split; [reflexivity|]. unfold byte. repeat split; auto; lia.
Qed.

(** ** The timeline *)
Fixpoint tl_rel (fl lo le : Z) (idx : list Z) (vals : list word) (tl : list entry) : Prop :=
  match idx, vals, tl with
  | [], [], [] => True
  | i :: idx', v :: vals', en :: tl' =>
      exists x s f, to_bf16 fl v = Ok (x, s, f + s * 2 ^ fl) /\ byte x /\ (s = 0 \/ s = 1) /\ 0 <= f < 2 ^ fl /\
        en = Entry (i - lo - 1) (exp_jump le x) (f + s * 2 ^ fl) /\ lo < i < 2 ^ 31 /\
        tl_rel fl i x idx' vals' tl'
  | _, _, _ => False
  end.

(** the signs that [used] allows *)
Definition sign_in (used : Z) (fl : Z) (en : entry) : Prop :=
  exists s f, e_frag en = f + s * 2 ^ fl /\ (s = 0 \/ s = 1) /\ 0 <= f < 2 ^ fl /\ Z.lor (s + 1) used = used.

Lemma timeline_ok fl n : 7 <= fl <= 23 -> n <= 2 ^ 31 ->
  forall idx vals lo prev le used0, length idx = length vals -> rising lo n idx -> -1 <= lo ->
  (prev = None /\ lo = -1 \/ prev = Some lo /\ 0 <= lo < 2 ^ 31) ->
  Forall (fun v => is_zero v = false) vals -> 0 <= used0 <= 3 ->
  exists tl used, timeline fl prev le used0 idx vals = Ok (tl, used) /\
    tl_rel fl lo le idx vals tl /\ 0 <= used <= 3 /\ Z.lor used0 used = used /\
    Forall (sign_in used fl) tl.
Proof.
  intros Hfl Hn. induction idx as [|i idx IH]; intros vals lo prev le used0 Hlen Hr Hlo Hp Hv Hu;
    destruct vals as [|v vals]; try discriminate.
  - exists [], used0. cbn. repeat split; auto; try lia. apply Z.lor_diag.
  - cbn [timeline]. cbn [rising] in Hr. destruct Hr as (Hi & Hr). inversion Hv as [|? ? Hv1 Hv2]; subst.
    destruct (bf16_ok fl v Hfl Hv1) as (x & s & f & E & Hx & Hs & Hf). rewrite E. cbn [bind].
    assert (Hu' : 0 <= Z.lor (s + 1) used0 <= 3 /\ Z.lor used0 (Z.lor (s + 1) used0) = Z.lor (s + 1) used0).
    { assert (C : used0 = 0 \/ used0 = 1 \/ used0 = 2 \/ used0 = 3) by lia.
      destruct Hs as [-> | ->]; destruct C as [-> | [-> | [-> | ->]]]; cbn; lia. }
    destruct (IH vals i (Some i) x (Z.lor (s + 1) used0)) as (tl & used & E2 & R & U1 & U2 & U3); auto; try lia.
    { right. split; [reflexivity|lia]. }
    rewrite E2. cbn [bind]. eexists; eexists. split; [reflexivity|].
    assert (Ez : w32 (i - match prev with Some j => w32 (1 + j) | None => 0 end) = i - lo - 1).
    { destruct Hp as [(-> & ->)|(-> & Hlo2)].
      - rewrite w32_id by lia. lia.
      - rewrite (w32_id (1 + lo)) by lia. rewrite w32_id by lia. lia. }
    rewrite Ez. split; [|split; [|split]].
    + cbn [tl_rel]. exists x, s, f. repeat split; auto; try apply Hx; lia.
    + auto.
    + rewrite <- U2. rewrite Z.lor_assoc. f_equal. apply Hu'.
    + constructor; auto. exists s, f. cbn [e_frag]. repeat split; auto; try lia.
      rewrite <- U2. rewrite !Z.lor_assoc, Z.lor_diag. reflexivity.
Qed.

Lemma timeline_codes_ok fl ps2 ps3 used : 7 <= fl <= 23 -> complete last0 ps2 -> complete last1 ps3 -> 1 <= used <= 3 ->
  forall tl idx vals lo le i cap, tl_rel fl lo le idx vals tl -> byte le -> -1 <= lo < 2 ^ 31 ->
  Forall (sign_in used fl) tl ->
  Forall (fun en => 0 <= e_zeros en <= top ps3 /\ 0 <= e_exp en <= top ps2) tl -> (i + length tl <= cap)%nat ->
  exists codes, timeline_codes (Some true) ps2 ps3 (2 ^ (if used =? 3 then fl + 1 else fl)) tl = Ok codes /\
    (length codes <= 3 * length tl)%nat /\
    reads (fun r => read_timeline (length tl) cap i r true (fst (read_as ps2)) (fst (read_as ps3))
                      (snd (read_as ps2)) (snd (read_as ps3)) used fl (w32 lo) le)
      codes (idx, map (dec_word fl) vals).
Proof.
  intros Hfl C2 C3 Hu. induction tl as [|en tl IH]; intros idx vals lo le i cap R Hle Hlo Hs Ht Hcap;
    destruct idx as [|ix idx]; destruct vals as [|v vals]; cbn [tl_rel] in R; try contradiction.
  - exists []. cbn [timeline_codes length map read_timeline]. split; [auto|]. split; [lia|]. apply reads_ret.
  - destruct R as (x & s & f & E & Hx & Hsg & Hf & -> & Hix & R).
    inversion Hs as [|? ? S1 S2]; subst. inversion Ht as [|? ? [Z1 Z2] T2]; subst. cbn [e_zeros e_exp e_frag length] in *.
    destruct (IH idx vals ix x (S i) cap R Hx ltac:(lia) S2 T2 ltac:(lia)) as (codes & Ec & Lc & Rc).
    destruct (read_entry_as last1 ps3 _ small1 C3 Z1) as (c1 & E1 & H1 & R1 & _).
    destruct (read_entry_as last0 ps2 _ small0 C2 Z2) as (c2 & E2 & H2 & R2 & R2').
    set (L := if used =? 3 then fl + 1 else fl) in *.
    assert (HL : 0 <= L <= 24) by (unfold L; destruct (used =? 3); lia).
    assert (PL : 0 < 2 ^ L) by (apply pow2_pos; lia).
    assert (Pf : 0 < 2 ^ fl) by (apply pow2_pos; lia).
    pose proof (Z.mod_pos_bound (f + s * 2 ^ fl) (2 ^ L) PL) as ML.
    set (c3 := (L, (f + s * 2 ^ fl) mod 2 ^ L)).
    assert (Hc3 : is_code c3) by (split; cbn [fst snd c3]; lia).
    cbn [timeline_codes bind e_zeros e_exp e_frag]. rewrite E1. cbn [bind].
    assert (Hp2 : rd ps2 0 = Ok (hd opool0 ps2)) by (destruct ps2; [destruct C2|reflexivity]).
    rewrite Hp2. cbn [bind].
    (* the code of the exponent, if there is one *)
    assert (X : exists cs2, (if 0 <? p_len (hd opool0 ps2) then let* c := entry_code ps2 (exp_jump le x) in Ok [c] else Ok []) = Ok cs2
      /\ (length cs2 <= 1)%nat /\
      reads (fun r => read_entry r (fst (read_as ps2)) (snd (read_as ps2))) cs2 (exp_jump le x)).
    { destruct (Z.ltb_spec 0 (p_len (hd opool0 ps2))).
      - exists [c2]. rewrite E2. auto.
      - exists []. split; [auto|]. split; [auto|]. apply R2'. destruct ps2; [destruct C2|]. destruct C2. cbn [hd] in *. lia. }
    destruct X as (cs2 & -> & Lcs2 & Rcs2). cbn [bind].
    rewrite seven_pow2 by lia. cbn [bind]. rewrite Ec. cbn [bind]. fold c3.
    exists ([c1] ++ cs2 ++ c3 :: codes). split; [reflexivity|].
    split; [rewrite !app_length; cbn [length]; lia|].
    destruct R1 as [F1 G1]. destruct Rcs2 as [F2 G2]. destruct Rc as [F3 G3].
    split; [repeat (apply Forall_app; split; auto)|].
    intros r rest Hr Hst. cbn [read_timeline].
    change (c3 :: codes) with ([c3] ++ codes) in Hst.
    rewrite !codes_bits_app, <- !app_assoc in Hst.
    rewrite (guard_true (i <? cap)%nat) by (apply Nat.ltb_lt; lia). cbn [bind].
    destruct (G1 r _ Hr Hst) as (r1 & -> & Hr1 & Hs1 & L1). cbn [bind].
    assert (Ei : w32 (w32 lo + 1 + (ix - lo - 1)) = ix).
    { unfold w32 at 2. rewrite <- Z.add_assoc. unfold w32. rewrite Z.add_mod_idemp_l by lia.
      rewrite Z.mod_small; lia. }
    rewrite Ei.
    destruct (G2 r1 _ Hr1 Hs1) as (r2 & -> & Hr2 & Hs2 & L2). cbn [bind].
    pose proof (exp_jump_byte le x Hle Hx) as Hjb. unfold byte in Hjb.
    rewrite w8_id by lia. rewrite exp_inverse by auto.
    cbn [codes_bits flat_map] in Hs2. rewrite app_nil_r in Hs2. unfold code_bits in Hs2. cbn [c3 fst snd] in Hs2.
    (* sign and fragment *)
    assert (Y : exists r4, (let* (minus, r) :=
        if used =? 3 then let* (b, r) := get_bits r2 1 in Ok (b =? 1, r) else Ok (negb (used =? 1), r2) in
      let* (f0, r) := get_bits r fl in Ok ((minus, f0), r)) = Ok (((s =? 1), f), r4) /\ reader_ok r4 /\
      stream r4 = codes_bits codes ++ rest /\ length (r_data r4) = length (r_data r2)).
    { unfold L in *. destruct (Z.eqb_spec used 3) as [U3|U3].
      - assert (s * 2 ^ fl + f < 2 ^ (fl + 1)) by (rewrite Z.pow_add_r by lia; change (2 ^ 1) with 2; nia).
        rewrite Z.mod_small in Hs2 by nia.
        replace (Z.to_nat (fl + 1)) with (Z.to_nat 1 + Z.to_nat fl)%nat in Hs2 by lia.
        rewrite bits_app, Z2Nat.id, Z.div_add, (Z.div_small f), Z.add_0_l, <- app_assoc in Hs2 by lia.
        destruct (get_part r2 1 s s _ ltac:(lia) Hr2 ltac:(lia) eq_refl Hs2) as (r3 & -> & Hr3 & Hs3 & L3). cbn [bind].
        assert (Eb : bits (Z.to_nat fl) (f + s * 2 ^ fl) = bits (Z.to_nat fl) f).
        { rewrite <- (bits_mod (Z.to_nat fl) (f + s * 2 ^ fl) fl) by lia. rewrite Z.mod_add, Z.mod_small by lia. auto. }
        destruct (get_part r3 fl _ f _ ltac:(lia) Hr3 Hf Eb Hs3) as (r4 & -> & Hr4 & Hs4 & L4).
        cbn [bind]. exists r4. repeat split; auto; try apply Hr4; congruence.
      - cbn [bind].
        destruct S1 as (s' & f' & Ef & Hs' & Hf' & Hlor). cbn [e_frag] in Ef.
        assert (s' = s) by nia. subst s'.
        assert (Esg : negb (used =? 1) = (s =? 1)).
        { assert (C : used = 1 \/ used = 2) by lia. destruct C as [-> | ->]; destruct Hsg as [-> | ->]; cbn in Hlor |- *; auto; discriminate. }
        rewrite Esg.
        rewrite Z.mod_add, Z.mod_small in Hs2 by lia.
        destruct (get_part r2 fl f f _ ltac:(lia) Hr2 Hf eq_refl Hs2) as (r4 & -> & Hr4 & Hs4 & L4).
        cbn [bind]. exists r4. repeat split; auto; apply Hr4. }
    destruct Y as (r4 & Y & Hr4 & Hs4 & L4).
    destruct (G3 r4 rest Hr4 Hs4) as (r5 & E5 & Hr5 & Hs5 & L5).
    exists r5. split; [|split; [auto|split; [auto|congruence]]].
    assert (Ew : dec_word fl v = sf_value (s =? 1) fl x f).
    { unfold dec_word. rewrite E. f_equal. lia. }
    cbn [map]. rewrite Ew.
    destruct (if used =? 3 then let* (b, r0) := get_bits r2 1 in Ok (b =? 1, r0) else Ok (negb (used =? 1), r2)) as [[m r3]| |];
      cbn [bind] in Y |- *; try discriminate.
    destruct (get_bits r3 fl) as [[f0 r6]| |]; cbn [bind] in Y |- *; try discriminate.
    inversion Y; subst. rewrite w32_id in E5 by lia. rewrite E5. cbn [bind app]. reflexivity.
Qed.

(** ** The first code of the exponents is short *)
Lemma kraft_le last k : 0 <= k <= 32 -> forall l nr prev c0, good last nr prev c0 l -> k <= c0 ->
  kraft prev l <= (List.last (map fst l) prev - prev) * 2 ^ (32 - k) /\ prev <= List.last (map fst l) prev.
Proof.
  intros Hk. induction l as [|[b c] t IH]; intros nr prev c0 G H; cbn [good kraft map fst] in *.
  - cbn [List.last]. lia.
  - destruct G as (_ & Hb & Hc & G). destruct (IH _ _ _ G ltac:(lia)) as (I1 & I2).
    assert (E : List.last (b :: map fst t) prev = List.last (map fst t) b).
    { destruct (map fst t) as [|d ds] eqn:Em; [reflexivity|].
      change (List.last (b :: d :: ds) prev) with (List.last (d :: ds) prev). apply last_indep. discriminate. }
    rewrite E. assert (2 ^ (32 - c) <= 2 ^ (32 - k)) by (apply pow2_le; lia).
    split; [|lia]. nia.
Qed.

Lemma last0_values a : In a last0 -> 0 <= a <= 256 /\ (a <= 192 \/ a = 256).
Proof.
  intros H.
  assert (K : forallb (fun a => (0 <=? a) && ((a <=? 192) || (a =? 256))) last0 = true) by (vm_compute; reflexivity).
  rewrite forallb_forall in K. apply K in H. lia.
Qed.

Lemma good_last last : forall l nr prev c0, good last nr prev c0 l -> l <> [] -> In (List.last (map fst l) prev) last.
Proof.
  induction l as [|[b c] t IH]; intros nr prev c0 G H; [congruence|]. cbn [good] in G. destruct G as (Hb & Hp & Hc & G).
  cbn [map fst]. destruct t as [|x t].
  - cbn. apply nth_error_In in Hb. auto.
  - assert (E : List.last (b :: map fst (x :: t)) prev = List.last (map fst (x :: t)) b).
    { cbn [map]. change (List.last (b :: fst x :: map fst t) prev) with (List.last (fst x :: map fst t) prev).
      apply last_indep. discriminate. }
    rewrite E. apply (IH _ _ _ G). discriminate.
Qed.

Lemma long_codes : forall l nr prev, good last0 nr prev 8 l -> l <> [] -> (prev = -1 \/ In prev last0) ->
  kraft prev l = (List.last (map fst l) prev - prev) * 2 ^ 24 \/
  kraft prev l <= (192 - prev) * 2 ^ 24 + 64 * 2 ^ 23.
Proof.
  induction l as [|[b c] t IH]; intros nr prev G Hne Hp; [congruence|].
  pose proof (good_last _ _ _ _ _ G Hne) as HL. apply last0_values in HL.
  assert (Hp192 : -1 <= prev <= 192).
  { cbn [good] in G. destruct G as (Hb & Hlt & _). apply nth_error_In, last0_values in Hb.
    destruct Hp as [->|Hp]; [lia|]. apply last0_values in Hp. lia. }
  pose proof G as G0. cbn [good] in G. destruct G as (Hb & Hlt & Hc & G). cbn [kraft].
  destruct (Z.eq_dec c 8) as [->|Hc9].
  - change (32 - 8) with 24 in *. destruct t as [|x t].
    + left. cbn [kraft map fst List.last]. lia.
    + assert (E : List.last (map fst ((b, 8) :: x :: t)) prev = List.last (map fst (x :: t)) b).
      { cbn [map fst]. change (List.last (b :: fst x :: map fst t) prev) with (List.last (fst x :: map fst t) prev).
        apply last_indep. discriminate. }
      rewrite E. destruct (IH (nr + 1) b G ltac:(discriminate)) as [I|I].
      * right. apply nth_error_In in Hb. auto.
      * left. lia.
      * right. lia.
  - right. destruct (kraft_le last0 9 ltac:(lia) ((b, c) :: t) nr prev c) as (K1 & _); [|lia|].
    + cbn [good]. repeat split; auto; lia.
    + cbn [kraft] in K1. change (32 - 9) with 23 in K1. lia.
Qed.

Lemma first_short lens c : complete_lens last0 lens -> nth_error lens 0 = Some c -> c <= 7.
Proof.
  intros (Hl & G & K) Hc. destruct (Z.le_gt_cases c 7) as [|Hgt]; [auto|exfalso].
  assert (NE : combine last0 lens <> []).
  { destruct lens; [discriminate|]. destruct last0 eqn:E0; [cbn [length] in Hl; lia|discriminate]. }
  assert (G8 : good last0 0 (-1) 8 (combine last0 lens)).
  { destruct last0 as [|b l]; [cbn [length] in Hl; lia|]. destruct lens as [|c' lens]; [discriminate|].
    cbn in Hc. inversion Hc; subst c'. cbn [combine good] in *. destruct G as (A1 & A2 & A3 & A4). repeat split; auto; lia. }
  destruct (long_codes _ _ _ G8 NE ltac:(auto)) as [I|I]; [|lia].
  pose proof (good_last _ _ _ _ _ G8 NE) as HL. apply last0_values in HL. lia.
Qed.

(** ** Values are in the pools that are used *)
Lemma pools_used_lt : forall h k, (exists a, nth_error h k = Some a /\ 0 < a) -> (k < pools_used h)%nat.
Proof.
  induction h as [|x h IH]; intros k (a & H & Ha); [destruct k; discriminate|].
  cbn [pools_used]. destruct k as [|k].
  - cbn in H. inversion H; subst. destruct (pools_used h); [|lia]. destruct (Z.ltb_spec 0 a); lia.
  - specialize (IH k (ex_intro _ a (conj H Ha))). destruct (pools_used h); lia.
Qed.

Lemma histogram_ok last values : increasing last -> (0 < length last <= 64)%nat ->
  exists ps, mapM (find_pool last) values = Ok ps /\
    histogram last values = Ok (map (fun t => Z.of_nat (count_occ Z.eq_dec ps (Z.of_nat t))) (seq 0 (length last))) /\
    Forall2 (fun v k => find_pool last v = Ok k /\ first_border last v k) values ps.
Proof.
  intros Hi Hl.
  assert (X : exists ps, mapM (find_pool last) values = Ok ps /\
    Forall2 (fun v k => find_pool last v = Ok k /\ first_border last v k) values ps).
  { induction values as [|v t (ps & E & F)]; [exists []; auto|].
    destruct (find_pool_ok last v Hi ltac:(lia)) as (k & Ek & Fb).
    exists (k :: ps). cbn [mapM]. rewrite Ek. cbn [bind]. rewrite E. auto. }
  destruct X as (ps & E & F). exists ps. unfold histogram. rewrite E. auto.
Qed.

Lemma values_in_top last values h n b v : increasing last -> (0 < length last <= 64)%nat ->
  histogram last values = Ok h -> n = pools_used h -> nth_error last (n - 1) = Some b ->
  In v values -> v <= List.last last 0 -> v <= b.
Proof.
  intros Hi Hl Hh -> Hb Hv Hm.
  destruct (histogram_ok last values Hi Hl) as (ps & E & Eh & F).
  assert (Hh' : h = map (fun t => Z.of_nat (count_occ Z.eq_dec ps (Z.of_nat t))) (seq 0 (length last))) by congruence.
  assert (X : exists k, In k ps /\ first_border last v k).
  { clear -F Hv. induction F as [|x k l ps (A & B) F IH]; [destruct Hv|].
    destruct Hv as [->|Hv]; [exists k; split; [left|]; auto|]. destruct (IH Hv) as (k' & H1 & H2). exists k'. split; [right|]; auto. }
  destruct X as (k & Hk & (R & Lo & Hi')).
  destruct (nth_error last (Z.to_nat k)) as [bk|] eqn:Ek; [|apply nth_error_None in Ek; lia].
  assert (Hvk : v <= bk).
  { destruct (Hi' bk eq_refl) as [|Elast]; [auto|].
    assert (NE : last <> []) by (intros ->; cbn [length] in Hl; lia).
    pose proof (last_nth last 0 NE) as LN. replace (length last - 1)%nat with (Z.to_nat k) in LN by lia. congruence. }
  assert (Hu : (Z.to_nat k < pools_used h)%nat).
  { apply pools_used_lt. exists (Z.of_nat (count_occ Z.eq_dec ps k)). split.
    - rewrite Hh'. erewrite map_nth_error by (rewrite nth_error_nth' with (d := O) by (rewrite seq_length; lia); reflexivity).
      rewrite seq_nth by lia. cbn [Nat.add]. rewrite Z2Nat.id by lia. auto.
    - apply (count_occ_In Z.eq_dec) in Hk. lia. }
  destruct (Nat.eq_dec (Z.to_nat k) (pools_used h - 1)) as [Eq|Ne].
  - rewrite Eq in Ek. assert (bk = b) by congruence. lia.
  - assert (bk < b) by (apply (Hi (Z.to_nat k) (pools_used h - 1)%nat); auto; lia). lia.
Qed.

(** ** The whole stream *)
Lemma rising_count n : forall idx lo, rising lo n idx -> idx <> [] -> lo + Z.of_nat (length idx) < n.
Proof.
  induction idx as [|i t IH]; intros lo H Hne; [congruence|]. cbn [rising length] in *. destruct H as (Hi & Ht).
  destruct t as [|j t]; [cbn [length]; lia|]. specialize (IH i Ht ltac:(discriminate)). cbn [length] in *. lia.
Qed.
Lemma tl_rel_len fl : forall idx vals tl lo le, tl_rel fl lo le idx vals tl -> length tl = length idx.
Proof.
  induction idx as [|i idx IH]; intros [|v vals] [|en tl] lo le R; cbn [tl_rel] in R; try contradiction; auto.
  destruct R as (x & s & f & _ & _ & _ & _ & _ & _ & R). cbn [length]. f_equal. eauto.
Qed.
Lemma tl_rel_range fl : forall idx vals tl lo le, tl_rel fl lo le idx vals tl -> byte le -> -1 <= lo ->
  Forall (fun en => 0 <= e_zeros en <= 2 ^ 31 /\ 0 <= e_exp en <= 256) tl.
Proof.
  induction idx as [|i idx IH]; intros [|v vals] [|en tl] lo le R Hle Hlo; cbn [tl_rel] in R; try contradiction; auto.
  destruct R as (x & s & f & _ & Hx & _ & _ & -> & Hi & R). constructor.
  - cbn [e_zeros e_exp]. pose proof (exp_jump_byte le x Hle Hx) as B. unfold byte in B. lia.
  - eapply (IH vals tl i x); eauto. lia.
Qed.

Lemma total_31 l : Forall (fun c : Z * Z => fst c <= 32) l -> total_bits l <= 32 * Z.of_nat (length l).
Proof. induction 1; cbn [total_bits fold_right length]; [lia|]. unfold total_bits in IHForall. lia. Qed.

