(** * P_Blob: reachable buffers are storable, what Parse returns, refutations *)
Require Import List Bool Arith ZArith Lia Sorting.Sorted.
Require Import Verif.M_Base Verif.M_Params Verif.M_Buffer Verif.M_View Verif.M_Denoise Verif.M_Archive Verif.M_Serializer
  Verif.S_Params Verif.S_Buffer Verif.P_Base Verif.P_Params Verif.P_Denoise Verif.P_Metrics Verif.P_Api Verif.P_Api2
  Verif.S_Serializer Verif.P_Archive Verif.P_Csr Verif.P_Serializer.
Import ListNotations.
Open Scope Z_scope.

Implicit Types (cd : codec) (legacy : buffer word -> list Z -> res (option (buffer word))).

(** ** Layouts *)
Lemma bands_pos p : (1 <= bands p)%nat.
Proof. unfold bands. destruct (is_1d p); lia. Qed.

Lemma layout_all {T} p (ch : list (mat T)) m : has_layout p ch -> In m ch ->
  exists s, (s <= nsteps p)%nat /\ sized (level_rows p s) (level_cols p s) m.
Proof.
  intros (H1 & H2 & H3) Hin. apply In_nth_error in Hin as (k & Hk).
  assert (k < length ch)%nat by (apply nth_error_Some; congruence). pose proof (bands_pos p) as Hb.
  destruct (Nat.eq_dec k (nsteps p * bands p)) as [->|Hne].
  - exists (nsteps p). split; auto.
  - destruct (idx_inv k (nsteps p) (bands p)) as (A & B & C); [lia|].
    exists (k / bands p + 1)%nat. split; [lia|]. apply (H2 (k / bands p)%nat (k mod bands p)%nat); auto. congruence.
Qed.

Lemma div_pow_le n s : (n / 2 ^ s <= n)%nat.
Proof. apply Nat.div_le_upper_bound; [apply Nat.pow_nonzero; lia|]. assert (1 <= 2 ^ s)%nat; [|nia].
  assert (2 ^ s <> 0)%nat by (apply Nat.pow_nonzero; lia). lia. Qed.
Lemma level_le0 p s : (level_rows p s <= level_rows p 0 /\ level_cols p s <= level_cols p 0)%nat.
Proof.
  unfold level_rows, level_cols. cbn [Nat.pow]. rewrite !Nat.div_1_r. split; [apply div_pow_le|].
  destruct (is_1d p); [lia|apply div_pow_le].
Qed.

Lemma reachable_storable {A : Arith word} p b :
  accepted p -> Forall (fun n => 1 <= n) (shape p) -> @reachable word A p b ->
  Z.of_nat (level_rows p 0) * Z.of_nat (level_cols p 0) < 2 ^ 64 -> storable b /\ bpar b = p.
Proof.
  intros HA Hpos HR Hsz. pose proof (reachable_inv p b HA Hpos HR) as (E & HL & HC).
  split; auto. unfold storable. rewrite E. split; auto. split; auto. intros ch Hch.
  destruct (level_pos p 0 HA Hpos ltac:(lia)) as [L1 L2].
  destruct (HC ch Hch) as [(H1 & H2)|H].
  - split; auto. apply Forall_forall. intros m Hm. destruct (H2 m Hm) as (R & C & El).
    unfold fits64, mwf. rewrite R, C, El. cbn. lia.
  - split; [apply H|]. apply Forall_forall. intros m Hm.
    destruct (layout_all p ch m H Hm) as (s & Hs & W & R & C).
    destruct (level_le0 p s). unfold fits64. rewrite R, C. split; auto. nia.
Qed.

Lemma untouched_empty {T} p (ch : list (mat T)) m : untouched p ch -> In m ch -> (rows m = 0)%nat.
Proof. intros (_ & H) Hm. apply (H m Hm). Qed.
Lemma layout_nonempty {T} p (ch : list (mat T)) m : accepted p -> Forall (fun n => 1 <= n) (shape p) ->
  has_layout p ch -> In m ch -> (rows m <> 0 /\ cols m <> 0)%nat.
Proof.
  intros HA Hpos HL Hm. destruct (layout_all p ch m HL Hm) as (s & Hs & _ & R & C).
  destruct (level_pos p s HA Hpos Hs). lia.
Qed.
Lemma layout_has {T} p (ch : list (mat T)) : (has_layout p ch \/ untouched p ch) -> exists m, In m ch.
Proof.
  intros H. destruct ch as [|m ch]; [|exists m; left; auto].
  destruct H as [(H & _)|(H & _)]; cbn in H; lia.
Qed.

(** Serialize with compression, for reachable buffers *)
Lemma serialize_reachable {A : Arith word} cd p b sf :
  accepted p -> Forall (fun n => 1 <= n) (shape p) -> @reachable word A p b ->
  Z.of_nat (level_rows p 0) < 2 ^ 31 -> Z.of_nat (level_cols p 0) < 2 ^ 31 ->
  1 <= sf -> codec_total cd (33 - Z.min 31 sf) ->
  (Forall (untouched p) (bdec b) \/ Forall (has_layout p) (bdec b) ->
     exists blob, serialize cd b sf = Ok (Some blob)) /\
  (~ (Forall (untouched p) (bdec b) \/ Forall (has_layout p) (bdec b)) -> serialize cd b sf = Ok None).
Proof.
  intros HA Hpos HR H1 H2 Hsf HT.
  destruct (reachable_storable p b HA Hpos HR) as [HS E].
  { assert (forall a b, 0 <= a -> 0 <= b -> a < 2 ^ 31 -> b < 2 ^ 31 -> a * b < 2 ^ 64) by (intros; nia). apply H; lia. }
  pose proof (reachable_inv p b HA Hpos HR) as (_ & HL & HC).
  assert (HI : int_sides b).
  { intros ch m Hch Hm. destruct (HC ch Hch) as [(_ & Hu)|Hl].
    - destruct (Hu m Hm) as (-> & -> & _). lia.
    - destruct (layout_all p ch m Hl Hm) as (s & _ & _ & -> & ->). destruct (level_le0 p s). lia. }
  split.
  - intros [HU|HF].
    + assert (HE : is_empty b = true).
      { apply is_empty_iff. intros ch m Hch Hm. rewrite Forall_forall in HU. left.
        eapply untouched_empty; eauto. }
      rewrite serialize_empty by auto. apply serialize_0; auto.
    + apply serialize_full; auto. intros ch m Hch Hm. rewrite Forall_forall in HF.
      eapply layout_nonempty; eauto.
  - intros Hn.
    assert (HE : is_empty b = false /\ exists ch, In ch (bdec b) /\ untouched p ch).
    { assert (HD : forall l : list (list (mat word)), (forall ch, In ch l -> untouched p ch \/ has_layout p ch) ->
        ~ (Forall (untouched p) l \/ Forall (has_layout p) l) ->
        (exists ch, In ch l /\ has_layout p ch) /\ (exists ch, In ch l /\ untouched p ch)).
      { clear. intros l. assert (G : (forall ch, In ch l -> untouched p ch \/ has_layout p ch) ->
          (Forall (untouched p) l \/ exists ch, In ch l /\ has_layout p ch) /\
          (Forall (has_layout p) l \/ exists ch, In ch l /\ untouched p ch)).
        { induction l as [|c l IH]; intros HC; [split; left; constructor|].
          destruct IH as [I1 I2]; [intros; apply HC; right; auto|].
          destruct (HC c (or_introl eq_refl)) as [U|L].
          - split; [|right; exists c; split; [left|]; auto].
            destruct I1 as [I1|(d & D1 & D2)]; [left; constructor; auto|right; exists d; split; [right|]; auto].
          - split; [right; exists c; split; [left|]; auto|].
            destruct I2 as [I2|(d & D1 & D2)]; [left; constructor; auto|right; exists d; split; [right|]; auto]. }
        intros HC Hn. destruct (G HC) as [G1 G2]. tauto. }
      destruct (HD _ HC Hn) as [(c1 & I1 & L1) (c2 & I2 & U2)]. split; [|eauto].
      destruct (is_empty b) eqn:Ee; auto. exfalso. rewrite is_empty_iff in Ee.
      destruct (layout_has p c1) as (m & Hm); auto.
      pose proof (layout_nonempty p c1 m HA Hpos L1 Hm). destruct (Ee c1 m I1 Hm); lia. }
    destruct HE as [HE (ch & Hch & HU)]. destruct (layout_has p ch) as (m & Hm); auto.
    eapply serialize_mixed; eauto. left. eapply untouched_empty; eauto.
Qed.

(** ** C22 *)
Lemma serialize_prefix_free cd legacy b1 b2 s1 s2 t1 t2 : storable b1 -> storable b2 ->
  serialize cd b1 0 = Ok (Some s1) -> serialize cd b2 0 = Ok (Some s2) -> s1 ++ t1 = s2 ++ t2 -> b1 = b2.
Proof.
  intros S1 S2 E1 E2 H.
  assert (Z0 : forall b, body_sf b 0 = 0) by (intros; unfold body_sf; destruct (is_empty b); reflexivity).
  pose proof (parse_serialize cd legacy b1 0 (fun x => x) s1 t1 S1 ltac:(lia)
    ltac:(rewrite Z0; congruence) ltac:(rewrite Z0; congruence) E1) as P1.
  pose proof (parse_serialize cd legacy b2 0 (fun x => x) s2 t2 S2 ltac:(lia)
    ltac:(rewrite Z0; congruence) ltac:(rewrite Z0; congruence) E2) as P2.
  rewrite H, P2 in P1. unfold result in P1. rewrite !Z0 in P1. cbn in P1. congruence.
Qed.

Lemma uncompressed cd legacy b : storable b ->
  exists blob, serialize cd b 0 = Ok (Some blob) /\ forall extra, parse cd legacy (blob ++ extra) = Ok (Some b).
Proof.
  intros HS. destruct (serialize_0 cd b HS) as (blob & E). exists blob. split; auto. intros extra.
  assert (Z0 : body_sf b 0 = 0) by (unfold body_sf; destruct (is_empty b); reflexivity).
  rewrite (parse_serialize cd legacy b 0 (fun x => x) blob extra HS ltac:(lia)
    ltac:(rewrite Z0; congruence) ltac:(rewrite Z0; congruence) E).
  unfold result. rewrite Z0. reflexivity.
Qed.

Lemma blob_bytes cd b sf blob : storable b -> 0 <= sf ->
  (body_sf b sf <> 0 -> indexable b) -> (body_sf b sf <> 0 -> exists q, codec_faithful cd (33 - body_sf b sf) q) ->
  serialize cd b sf = Ok (Some blob) -> Forall is_byte blob.
Proof.
  intros HS Hsf HI HC H. apply serialize_inv in H; auto. destruct H as (subs & HM & ->).
  pose proof (body_sf_range b sf Hsf).
  apply Forall_app. split; [constructor; [unfold is_byte; lia|constructor]|].
  apply Forall_app. split.
  { unfold put_params, put_shape. repeat (apply Forall_app; split); try apply le_bytes.
    apply Forall_concat, Forall_forall. intros l Hl. apply in_map_iff in Hl. destruct Hl as (z & <- & _). apply le_bytes. }
  apply Forall_app. split; [constructor; [unfold is_byte; lia|constructor]|].
  apply Forall_concat, Forall_forall. intros l Hl. apply in_concat in Hl. destruct Hl as (es & He & Hl).
  apply mapM_inv in HM. destruct HS as (_ & _ & HB).
  apply In_nth_error in He. destruct He as (i & Hi).
  assert (HLn : length (bdec b) = length subs) by exact (Forall2_len _ _ _ HM).
  assert (i < length subs)%nat by (apply nth_error_Some; congruence).
  destruct (nth_error (bdec b) i) as [ch|] eqn:Ech; [|apply nth_error_None in Ech; lia].
  pose proof (Forall2_nth_error _ _ _ HM i ch es Ech Hi) as HM2. cbn beta in HM2.
  apply mapM_inv in HM2. apply In_nth_error in Hl. destruct Hl as (j & Hj).
  assert (HLn2 := Forall2_len _ _ _ HM2).
  assert (j < length es)%nat by (apply nth_error_Some; congruence).
  destruct (nth_error ch j) as [m|] eqn:Em; [|apply nth_error_None in Em; lia].
  pose proof (Forall2_nth_error _ _ _ HM2 j m l Em Hj) as HP. cbn beta in HP.
  apply nth_error_In in Ech, Em. destruct (HB ch Ech) as [_ HF]. rewrite Forall_forall in HF.
  eapply put_subband_bytes; eauto. intros Hs0. eapply HI; eauto.
Qed.

(** ** C23, C24 *)
Lemma result_full b sf q : storable b -> 1 <= sf -> no_empty_subband b -> result b sf q = map_buffer (clean q) b.
Proof.
  intros HS Hsf HN. unfold result, body_sf. destruct (is_empty b) eqn:E.
  - cbn [Z.eqb]. apply is_empty_iff in E. destruct HS as (_ & _ & HC).
    unfold map_buffer. destruct b as [p [|ch l]]; [reflexivity|]. exfalso.
    destruct (HC ch (or_introl eq_refl)) as [H1 _]. destruct ch as [|m ch]; [cbn in H1; lia|].
    specialize (E _ m (or_introl eq_refl) (or_introl eq_refl)).
    specialize (HN _ m (or_introl eq_refl) (or_introl eq_refl)). lia.
  - destruct (Z.eqb_spec (Z.min 31 sf) 0); [lia|reflexivity].
Qed.

Lemma compressed cd legacy b sf q : storable b -> 1 <= sf -> indexable b -> no_empty_subband b ->
  codec_faithful cd (33 - Z.min 31 sf) q ->
  (forall blob, serialize cd b sf = Ok (Some blob) ->
     Forall is_byte blob /\ forall extra, parse cd legacy (blob ++ extra) = Ok (Some (map_buffer (clean q) b))) /\
  (int_sides b -> codec_total cd (33 - Z.min 31 sf) -> exists blob, serialize cd b sf = Ok (Some blob)).
Proof.
  intros HS Hsf HI HN HC.
  assert (HC' : body_sf b sf <> 0 -> codec_faithful cd (33 - body_sf b sf) q).
  { unfold body_sf. destruct (is_empty b); [congruence|auto]. }
  split.
  - intros blob H. split; [eapply blob_bytes; eauto; lia|].
    intros extra. rewrite <- (result_full b sf q HS Hsf HN). apply parse_serialize; auto. lia.
  - intros. apply serialize_full; auto.
Qed.

(** ** The plain codec *)
Lemma plain_faithful prec : 0 <= prec <= 32 -> codec_faithful plain_codec prec (clear_low prec).
Proof.
  intros Hp. split.
  - intros l bytes Hl H. cbn [fpz_write plain_codec] in H. apply Ok_inj in H. subst bytes.
    assert (Hlen : length (concat (map (fun x => le 4 (wbits (clear_low prec x))) l)) = (length l * 4)%nat).
    { clear. induction l; cbn [map concat length]; [reflexivity|]. rewrite app_length, le_length, IHl. lia. }
    split; [|split].
    + apply Forall_concat, Forall_forall. intros z Hz. apply in_map_iff in Hz. destruct Hz as (x & <- & _). apply le_bytes.
    + rewrite Hlen. lia.
    + cbn [fpz_read plain_codec]. rewrite Hlen, Nat.div_mul by lia.
      rewrite <- (app_nil_r (concat _)).
      rewrite <- (map_length (fun x => wbits (clear_low prec x)) l).
      rewrite <- (map_map (fun x => wbits (clear_low prec x)) (le 4)).
      assert (HX : exactly (readN (length (map (fun x => wbits (clear_low prec x)) l)) (get_chk 4))
                 (concat (map (le 4) (map (fun x => wbits (clear_low prec x)) l)))
                 (map (fun x => wbits (clear_low prec x)) l)).
      { apply exactly_N. apply Forall_forall. intros z Hz. apply in_map_iff in Hz. destruct Hz as (x & <- & _).
        apply exactly_le. pose proof (wbits_range (clear_low prec x)). lia. }
      rewrite HX. f_equal. rewrite map_map. apply map_ext. intros x. apply mkword_wbits.
  - intros e. cbn [svb_tail plain_codec]. split; [|cbn; lia].
    apply Forall_forall. intros z Hz. apply repeat_spec in Hz. subst. unfold is_byte. lia.
Qed.
Lemma plain_total prec : codec_total plain_codec prec.
Proof. intros l. eexists. reflexivity. Qed.
Lemma clear_low_32 x : clear_low 32 x = x.
Proof. unfold clear_low. rewrite Z.sub_diag, Z.pow_0_r, Z.div_1_r, Z.mul_1_r. apply mkword_wbits. Qed.

(** ** C26 *)
Lemma first_char_skip bl v rest : Forall blank bl -> ~ blank v -> first_char (bl ++ v :: rest) = Some v.
Proof.
  intros H Hv. assert (B : forall c, is_blank c = true <-> blank c).
  { intros c. unfold is_blank, blank. rewrite orb_true_iff, andb_true_iff. lia. }
  induction H as [|c l Hc Hl IH]; cbn [app first_char].
  - destruct (is_blank v) eqn:E; [|reflexivity]. apply B in E. contradiction.
  - apply B in Hc. rewrite Hc. auto.
Qed.
Lemma parse_version cd legacy bl v rest : Forall blank bl -> ~ blank v -> v <> 2 -> v <> 3 ->
  parse cd legacy (bl ++ v :: rest) = Ok None.
Proof.
  intros H1 H2 H3 H4. unfold parse. rewrite first_char_skip by auto. unfold serialization_version.
  destruct (Z.eqb_spec v 3); [congruence|]. destruct (Z.eqb_spec v 2); [congruence|]. reflexivity.
Qed.
Lemma parse_blank cd legacy bl : Forall blank bl -> parse cd legacy bl = UB.
Proof.
  intros H. unfold parse. replace (first_char bl) with (@None Z); [reflexivity|].
  assert (B : forall c, is_blank c = true <-> blank c).
  { intros c. unfold is_blank, blank. rewrite orb_true_iff, andb_true_iff. lia. }
  induction H as [|c l Hc Hl IH]; cbn [first_char]; auto. apply B in Hc. rewrite Hc. auto.
Qed.

Lemma both_header2 p sf : accepted p -> 0 <= sf < 256 ->
  both undef (read* _ := get_raw 1 in read* p := get_params in read* sf := get_raw 1 in rret (p, sf))
    ([2] ++ put_params p ++ [sf]) (p, sf).
Proof.
  intros (Hr & Hl & _) Hs.
  eapply both_bind; [apply escapes_undef | apply both_byte; lia |].
  eapply both_bind; [apply escapes_undef | apply both_params; auto |].
  { unfold legal in Hl. unfold dimension. lia. }
  apply (both_last undef (get_raw 1) (fun s => (p, s))); [apply escapes_undef | apply both_byte; lia].
Qed.

Lemma v2_body dec : Forall (fun ch => Forall fits64 ch /\ Z.of_nat (length ch) < 2 ^ 64) dec ->
  Z.of_nat (length dec) < 2 ^ 64 ->
  both throws (get_vec 24 (get_vec 40 get_mat)) (vec_v2 24 (vec_v2 40 put_mat) dec) dec.
Proof.
  intros H Hl. unfold vec_v2 at 1. apply both_vec; [lia|auto|].
  eapply Forall_impl; [|exact H]. intros ch [Hf Hc]. unfold vec_v2. apply both_vec; [lia|auto|].
  eapply Forall_impl; [|exact Hf]. intros m Hm. apply both_mat; auto.
Qed.

(** any number of channels and subbands comes back *)
Lemma parse_v2_any cd legacy b extra : accepted (bpar b) ->
  Forall (fun ch => Forall fits64 ch /\ Z.of_nat (length ch) < 2 ^ 64) (bdec b) ->
  Z.of_nat (length (bdec b)) < 2 ^ 64 ->
  parse cd legacy (blob_v2 b ++ extra) = Ok (Some b).
Proof.
  intros HA HF HL. destruct (both_header2 (bpar b) 0 HA ltac:(lia)) as [HH _].
  pose proof (v2_body (bdec b) HF HL) as [HB _].
  unfold blob_v2, parse. cbn [app first_char]. change (is_blank 2) with false. cbv iota.
  change (2 =? serialization_version) with false. change (2 =? 2) with true. cbv iota. unfold parse_v2.
  replace (2 :: (put_params (bpar b) ++ 0 :: vec_v2 24 (vec_v2 40 put_mat) (bdec b)) ++ extra)
    with (([2] ++ put_params (bpar b) ++ [0]) ++ (vec_v2 24 (vec_v2 40 put_mat) (bdec b) ++ extra))
    by (cbn [app]; rewrite <- !app_assoc; reflexivity).
  rewrite HH. cbn [bind]. pose proof HA as (Hr & Hl & Ht & _).
  rewrite new_buffer_legal by (auto; lia). cbn [bind Z.eqb negb]. rewrite HB. cbn [bind catch fst bpar].
  destruct b; reflexivity.
Qed.

Lemma subband_lt p : accepted p -> Z.of_nat (nsteps p * bands p + 1) < 2 ^ 64.
Proof.
  intros (Hr & Hl & Ht & Hs).
  assert (Hk : steps p < 64).
  { destruct Hl as (Hd & Hm & Hst). destruct (Z.eqb_spec (wtype p) 0) as [E|E]; [lia|].
    destruct (shape p) as [|n l]; [cbn in Hd; lia|]. apply Forall_cons_iff in Hst, Hs.
    destruct Hst as [Hst _], Hs as [Hs _].
    destruct (Z_lt_ge_dec (steps p) 64); auto. exfalso.
    assert (2 ^ 64 <= 2 ^ steps p) by (apply Z.pow_le_mono_r; lia). nia. }
  unfold nsteps, bands. assert (0 <= steps p) by (destruct Hr as (_ & _ & _ & H & _); unfold u64 in H; lia).
  destruct (is_1d p); nia.
Qed.

Lemma parse_v2_storable cd legacy b extra : storable b -> parse cd legacy (blob_v2 b ++ extra) = Ok (Some b).
Proof.
  intros (HA & HL & HC). apply parse_v2_any; auto.
  - apply Forall_forall. intros ch Hch. destruct (HC ch Hch) as [E F]. split; auto.
    rewrite E. apply subband_lt; auto.
  - destruct HA as ((_ & _ & Hn & _) & _). unfold u64 in Hn. lia.
Qed.

(** ** What Parse returns for a version 3 blob *)
Lemma rbind_ok {X Y} (r : reader X) (f : X -> reader Y) s y :
  rbind r f s = Ok y -> exists x s1, r s = Ok (x, s1) /\ f x s1 = Ok y.
Proof. intros H. unfold rbind in H. apply bind_ok in H as ([x s1] & H1 & H2). eauto. Qed.

Lemma readN_inv {X} (r : reader X) n : forall s l s', readN n r s = Ok (l, s') ->
  length l = n /\ Forall (fun x => exists s1 s2, r s1 = Ok (x, s2)) l.
Proof.
  induction n; intros s l s' H; cbn [readN] in H.
  - inversion H; subst. auto.
  - apply rbind_ok in H as (x & s1 & H1 & H). apply rbind_ok in H as (t & s2 & H2 & H).
    inversion H; subst. apply IHn in H2. destruct H2 as [E F]. cbn [length]. split; [auto|].
    constructor; eauto.
Qed.
Lemma get_mat_wf s m s' : get_mat s = Ok (m, s') -> mwf m.
Proof.
  intros H. unfold get_mat in H.
  do 9 (apply rbind_ok in H as (? & ? & _ & H)).
  apply rbind_ok in H as (l & s1 & H1 & H). inversion H; subst. apply readN_inv in H1. destruct H1 as [E _].
  unfold mwf. cbn [elts rows cols]. rewrite map_length. auto.
Qed.
Lemma mset_wf {T} (m m' : mat T) i j x : mwf m -> mset m i j x = Ok m' -> mwf m'.
Proof.
  intros W H. unfold mset in H. apply bind_ok in H as (u & _ & H). apply bind_ok in H as (l & H1 & H).
  inversion H; subst. apply wr_ok in H1. destruct H1 as [_ ->]. unfold mwf in *. cbn [elts rows cols].
  rewrite upd_length. auto.
Qed.
Lemma from_csr_wf is vs r c m : convert_from_csr is vs r c = Ok m -> mwf m.
Proof.
  intros H. unfold convert_from_csr in H. apply bind_ok in H as (u & _ & H).
  eapply (loop_partial _ _ _ (fun _ m => mwf m)); [exact H| |].
  - unfold mwf. cbn [elts rows cols]. apply repeat_length.
  - intros i m1 m2 _ W Hb. apply bind_ok in Hb as (idx & _ & Hb). apply bind_ok in Hb as (u1 & _ & Hb).
    apply bind_ok in Hb as (v & _ & Hb). eapply mset_wf; eauto.
Qed.
Lemma get_subband_wf cd sf s m s' : get_subband cd sf s = Ok (m, s') -> mwf m.
Proof.
  unfold get_subband. destruct (sf =? 0); [apply get_mat_wf|]. intros H.
  do 5 (apply rbind_ok in H as (? & ? & _ & H)).
  apply bind_ok in H as (m1 & H1 & H). inversion H; subst. unfold decompress in H1.
  do 4 (apply bind_ok in H1 as (? & _ & H1)). eapply from_csr_wf; eauto.
Qed.
Lemma get_channels_inv {X} (r : reader (mat word)) (shp : list (list X)) : forall s dec s',
  get_channels shp r s = Ok (dec, s') ->
  Forall2 (fun c ch => length ch = length c /\ Forall (fun m => exists s1 s2, r s1 = Ok (m, s2)) ch) shp dec.
Proof.
  induction shp as [|c shp IH]; intros s dec s' H; cbn [get_channels] in H.
  - inversion H; subst. constructor.
  - apply rbind_ok in H as (x & s1 & H1 & H). apply rbind_ok in H as (t & s2 & H2 & H).
    inversion H; subst. apply readN_inv in H1. constructor; eauto.
Qed.

Lemma new_buffer_inv {T} p (b0 : buffer T) : new_buffer p = Ok b0 ->
  new_buffer (bpar b0) = Ok b0 /\
  (0 <= signum p -> Z.of_nat (length (bdec b0)) = signum (bpar b0)) /\
  Forall (fun c => length c = subband_count (bpar b0)) (bdec b0) /\
  (length (shape (bpar b0)) = 1 \/ length (shape (bpar b0)) = 2)%nat /\ signum (bpar b0) = signum p.
Proof.
  intros H. pose proof H as H0. unfold new_buffer in H.
  destruct (negb _) eqn:Ed; [discriminate|].
  apply bind_ok in H as (ms & Ems & H). apply bind_ok in H as (sh & Esh & H).
  destruct (_ <? _) eqn:E1; [discriminate|]. apply bind_ok in H as (mx & Emx & H).
  destruct (mx <? _) eqn:E2; [discriminate|]. apply Ok_inj in H. subst b0. cbn [bpar bdec].
  assert (Hdim : (length (shape p) = 1 \/ length (shape p) = 2)%nat).
  { apply negb_false_iff, orb_true_iff in Ed. unfold dimension in Ed. rewrite !Nat.eqb_eq in Ed. lia. }
  split; [|split; [|split; [|split]]].
  - unfold new_buffer, dimension in *. cbn [shape wtype steps signum]. rewrite Ed, Ems. cbn [bind].
    rewrite Esh. cbn [bind]. rewrite E1, Emx. cbn [bind].
    destruct (Z.eqb_spec (wtype p) 0) as [E|E].
    + replace (mx <? 0) with false; [reflexivity|].
      unfold max_steps in Emx. rewrite E in Emx. cbn [Z.eqb] in Emx. apply Ok_inj in Emx. subst mx. reflexivity.
    + rewrite E2. reflexivity.
  - intros Hs. rewrite repeat_length. cbn [signum]. lia.
  - apply Forall_forall. intros c Hc. apply repeat_spec in Hc. subst c. rewrite repeat_length.
    unfold decomposition_size, subband_count. cbn [shape steps].
    set (k := if wtype p =? 0 then 0 else steps p).
    destruct (shape p) as [|a [|a2 [|a3 l]]] eqn:Es; cbn in Hdim; try lia.
    + unfold spw, dimension; cbn [shape steps length Nat.eqb]. lia.
    + unfold spw, dimension; cbn [shape steps length Nat.eqb]. lia.
  - auto.
  - reflexivity.
Qed.

Definition keeps_bytes {X} (r : reader X) : Prop :=
  forall s x s', Forall is_byte s -> r s = Ok (x, s') -> Forall is_byte s'.
Lemma take_inv n s a t : take n s = Some (a, t) -> s = a ++ t /\ length a = n.
Proof.
  unfold take. destruct (Nat.leb_spec n (length s)); [|discriminate]. intros H0. inversion H0; subst.
  split; [symmetry; apply firstn_skipn|apply firstn_length_le; auto].
Qed.
Lemma get_le_inv sh n s z s' : (forall x, sh <> Ok x) -> Forall is_byte s -> get_le sh n s = Ok (z, s') ->
  Forall is_byte s' /\ 0 <= z < 256 ^ Z.of_nat n.
Proof.
  intros Hsh H E. unfold get_le in E. destruct (take n s) as [[a t]|] eqn:Et; [|exfalso; eapply Hsh; eauto].
  apply take_inv in Et. destruct Et as [-> Hl]. inversion E; subst. apply Forall_app in H. destruct H.
  split; auto. apply of_le_range; auto.
Qed.
Lemma keeps_N {X} (r : reader X) : keeps_bytes r -> forall n, keeps_bytes (readN n r).
Proof.
  intros Hr. induction n; intros s l s' H E; cbn [readN] in E.
  - inversion E; subst; auto.
  - apply rbind_ok in E as (x & s1 & H1 & E). apply rbind_ok in E as (t & s2 & H2 & E).
    inversion E; subst. eapply IHn; [|exact H2]. eapply Hr; eauto.
Qed.
Lemma keeps_raw n : keeps_bytes (get_raw n).
Proof. intros s x s' H E. eapply get_le_inv; [|exact H|exact E]. discriminate. Qed.
Lemma keeps_shape_bytes : keeps_bytes get_shape.
Proof.
  intros s l s' H E. unfold get_shape in E. apply rbind_ok in E as (n & s1 & H1 & E).
  apply rbind_ok in E as (u & s2 & H2 & E). unfold rcheck in H2. apply bind_ok in H2 as (v & _ & H2). inversion H2; subst.
  eapply (keeps_N (get_raw 8)); [apply keeps_raw| |exact E]. eapply keeps_raw; eauto.
Qed.
Lemma get_params_signum s p s' : Forall is_byte s -> get_params s = Ok (p, s') -> 0 <= signum p.
Proof.
  intros H E. unfold get_params in E. apply rbind_ok in E as (sh & s1 & H1 & E).
  apply rbind_ok in E as (num & s2 & H2 & E). apply rbind_ok in E as (st & s3 & H3 & E).
  apply rbind_ok in E as (t & s4 & H4 & E). inversion E; subst. cbn [signum].
  apply keeps_shape_bytes in H1; auto. apply get_le_inv in H2; [lia|discriminate|auto].
Qed.

Lemma parse_consistent cd legacy rest b : Forall is_byte rest ->
  parse cd legacy (3 :: rest) = Ok (Some b) ->
  (exists b0 : buffer word, new_buffer (bpar b) = Ok b0) /\
  Z.of_nat (length (bdec b)) = signum (bpar b) /\
  forall ch, In ch (bdec b) -> length ch = subband_count (bpar b) /\ Forall mwf ch.
Proof.
  intros HB H. unfold parse in H. cbn [first_char] in H. change (is_blank 3) with false in H. cbv iota in H.
  change (3 =? serialization_version) with true in H. cbv iota in H. unfold parse_v3 in H.
  match type of H with catch ?r = _ => destruct r as [b'| |] eqn:E; cbn [catch] in H; try discriminate end.
  assert (b' = b) by congruence. subst b'. clear H.
  apply bind_ok in E as ([[p sf] s1] & Hh & E). apply bind_ok in E as (b0 & Hn & E).
  apply bind_ok in E as ([dec s2] & Hc & E). apply Ok_inj in E. subst b. cbn [bpar bdec fst].
  apply rbind_ok in Hh as (v & t1 & H1 & Hh). apply rbind_ok in Hh as (p' & t2 & H2 & Hh).
  apply rbind_ok in Hh as (sf' & t3 & H3 & Hh). inversion Hh; subst p' sf' t3; clear Hh.
  assert (Hs : 0 <= signum p).
  { eapply get_params_signum; [|exact H2]. eapply keeps_raw; [|exact H1]. constructor; [unfold is_byte; lia|auto]. }
  apply new_buffer_inv in Hn. destruct Hn as (Hn & HL & HF & _ & _).
  apply get_channels_inv in Hc.
  split; [exists b0; auto|]. split.
  - rewrite <- HL by auto. f_equal. symmetry. apply (Forall2_len _ _ _ Hc).
  - revert HF Hc. generalize (subband_count (bpar b0)) as k. generalize (bdec b0) as l. clear. intros l k HF Hc.
    induction Hc as [|c ch l dec (E & F) Hc IH]; [contradiction|]. apply Forall_cons_iff in HF. destruct HF as [H1 H2].
    intros ch' [<-|Hin]; [|apply IH; auto]. split; [congruence|].
    eapply Forall_impl; [|exact F]. intros m (s1 & s2 & Hm). eapply get_subband_wf; eauto.
Qed.

(** ** CSR *)
Lemma csr_round_trip m : mwf m -> (rows m <> 0 /\ cols m <> 0)%nat ->
  Z.of_nat (rows m) < 2 ^ 31 -> Z.of_nat (cols m) < 2 ^ 31 ->
  Z.of_nat (rows m) * Z.of_nat (cols m) <= 2 ^ 32 ->
  exists csr, convert_to_csr m = Ok csr /\ StronglySorted Z.lt (map fst csr) /\
    Forall (fun e => is_zero (snd e) = false) csr /\
    convert_from_csr (map fst csr) (map snd csr) (Z.of_nat (rows m)) (Z.of_nat (cols m))
    = Ok (map_mat (clean (fun x => x)) m).
Proof.
  intros W Hn H1 H2 H3. exists (nz (elts m)). rewrite to_csr_eq by auto. rewrite nz_mod by auto.
  split; auto. split; [apply nz_sorted|]. split.
  - apply Forall_forall. intros e He. apply nz_in in He. destruct He as (k & x & -> & _ & Hx). auto.
  - rewrite <- (from_csr_nz (fun x => x)) by (auto; lia). rewrite map_id. reflexivity.
Qed.

Lemma csr_wraps m k x : mwf m -> Z.of_nat (rows m) < 2 ^ 31 -> Z.of_nat (cols m) < 2 ^ 31 ->
  2 ^ 32 <= Z.of_nat k -> nth_error (elts m) k = Some x -> is_zero x = false ->
  exists csr, convert_to_csr m = Ok csr /\
    convert_from_csr (map fst csr) (map snd csr) (Z.of_nat (rows m)) (Z.of_nat (cols m))
    <> Ok (map_mat (clean (fun x => x)) m).
Proof.
  intros W H1 H2 Hk Hx Hz. assert (Hlt : (k < length (elts m))%nat) by (apply nth_error_Some; congruence).
  assert (W' := W). unfold mwf in W'. eexists. rewrite to_csr_eq; auto; [|split; intros E; rewrite E in W'; lia].
  split; [reflexivity|]. intros HF. unfold convert_from_csr in HF. apply bind_ok in HF as (u & _ & HF).
  set (es := map (fun kx : Z * word => (fst kx mod 2 ^ 32, snd kx)) (nz (elts m))) in *.
  assert (HI : forall idx, In idx (map fst es) -> 0 <= idx < 2 ^ 32).
  { intros idx Hi. apply in_map_iff in Hi. destruct Hi as (e & <- & He). apply in_map_iff in He.
    destruct He as (e' & <- & _). cbn [fst]. apply Z.mod_pos_bound. lia. }
  assert (HK : cols (map_mat (clean (fun x => x)) m) = cols m /\
     nth_error (elts (map_mat (clean (fun x => x)) m)) k = Some word_zero).
  { refine (loop_partial _ _ _ (fun _ m' => cols m' = cols m /\ nth_error (elts m') k = Some word_zero) _ _ HF _ _).
    - cbn [cols elts]. rewrite !Nat2Z.id. split; auto. rewrite (nth_error_nth' _ word_zero) by (rewrite repeat_length; lia).
      f_equal. apply nth_repeat.
    - intros i m1 m2 Hi (C & N) Hb. apply bind_ok in Hb as (idx & Hidx & Hb).
      apply bind_ok in Hb as (u1 & G1 & Hb). apply bind_ok in Hb as (v & _ & Hb).
      apply rd_ok in Hidx. apply nth_error_In in Hidx. apply HI in Hidx. apply guard_ok in G1.
      unfold mset in Hb. apply bind_ok in Hb as (u2 & _ & Hb). apply bind_ok in Hb as (l & Hw & Hb).
      apply Ok_inj in Hb. subst m2. cbn [cols elts]. split; auto. apply wr_ok in Hw. destruct Hw as [_ ->].
      rewrite C. rewrite upd_nth_neq; auto. intros E.
      assert (Z.of_nat (cols m) <> 0) by (destruct (Z.eqb_spec (Z.of_nat (cols m)) 0); auto; discriminate).
      assert (Hd : Z.of_nat k = idx).
      { rewrite <- E. pose proof (Z.div_mod idx (Z.of_nat (cols m))). pose proof (Z.mod_pos_bound idx (Z.of_nat (cols m))).
        assert (0 <= idx / Z.of_nat (cols m)) by (apply Z.div_pos; lia).
        rewrite Nat2Z.inj_add, Nat2Z.inj_mul, !Z2Nat.id by lia. lia. }
      lia. }
  destruct HK as [_ HK]. unfold map_mat in HK. cbn [elts] in HK. rewrite nth_error_map, Hx in HK. cbn in HK.
  unfold clean in HK. rewrite Hz in HK. inversion HK. subst x. discriminate.
Qed.

(** ** Examples and refutations *)
(** arithmetic on words for examples only *)
Definition word_arith : Arith word :=
  {| a0 := word_zero; aadd := fun a _ => a; amul := fun a _ => a; aopp := fun a => a;
     alit := fun q => mkword (QArith_base.Qnum q); asqrt2 := fun x => x; ascale := fun _ _ x => x |}.

Definition ex_p : params := Params [8] 2 1 1.
Definition ex_word (z : Z) : word := mkword z.
Definition ex_signal : mat word := mcolvec (map ex_word [1; 2; 3; 4; 5; 6; 7; 8]).

Lemma ex_accepted n : 0 <= n < 2 ^ 64 -> accepted (Params [8] n 1 1).
Proof.
  intros Hn. unfold accepted, params_rep, legal, u64, i32; cbn [shape signum steps wtype length].
  repeat split; auto; repeat constructor; lia.
Qed.

Lemma mixed_reachable : exists b, @reachable word word_arith ex_p b /\
  exists ch0 ch1, bdec b = [ch0; ch1] /\ untouched ex_p ch0 /\ has_layout ex_p ch1.
Proof.
  eexists. split.
  - eapply (reach_view (A := word_arith) _ _ (View 1 1 true) [ex_signal] null_denoiser).
    + apply reach_new. vm_compute. reflexivity.
    + constructor; [apply mcolvec_wf|constructor].
    + split; [reflexivity|]. intros m s W. repeat split; auto.
    + vm_compute. reflexivity.
  - eexists. eexists. split; [reflexivity|]. split.
    + split; [reflexivity|]. intros m [<-|[<-|[]]]; auto.
    + split; [reflexivity|]. split.
      * intros s i m Hs Hi Hm. vm_compute in Hs, Hi. assert (s = 0%nat) by lia. assert (i = 0%nat) by lia. subst.
        vm_compute in Hm. inversion Hm; subst. repeat split; vm_compute; reflexivity.
      * intros m Hm. vm_compute in Hm. inversion Hm; subst. repeat split; vm_compute; reflexivity.
Qed.

Lemma mixed_refused : exists b, @reachable word word_arith ex_p b /\
  forall cd sf, 1 <= sf -> codec_total cd (33 - Z.min 31 sf) -> serialize cd b sf = Ok None.
Proof.
  destruct mixed_reachable as (b & HR & ch0 & ch1 & E & HU & HL). exists b. split; auto.
  intros cd sf Hsf HT.
  destruct (serialize_reachable (A := word_arith) cd ex_p b sf) as [_ H]; auto.
  - apply ex_accepted. lia.
  - repeat constructor. lia.
  - vm_compute. reflexivity.
  - vm_compute. reflexivity.
  - apply H. rewrite E. intros [F|F]; apply Forall_cons_iff in F; destruct F as [F1 F2].
    + apply Forall_cons_iff in F2. destruct F2 as [F2 _].
      destruct (layout_has ex_p ch1) as (m & Hm); auto.
      pose proof (untouched_empty ex_p ch1 m F2 Hm).
      assert (Hne : (rows m <> 0 /\ cols m <> 0)%nat); [|lia].
      eapply layout_nonempty; eauto; [apply ex_accepted; lia | repeat constructor; lia].
    + destruct (layout_has ex_p ch0) as (m & Hm); auto.
      pose proof (untouched_empty ex_p ch0 m HU Hm).
      assert (Hne : (rows m <> 0 /\ cols m <> 0)%nat); [|lia].
      eapply layout_nonempty; eauto; [apply ex_accepted; lia | repeat constructor; lia].
Qed.

(** a buffer whose subbands are too short *)
Definition short_buffer : buffer word :=
  Buffer (Params [8] 1 1 1) [[mcolvec (repeat word_zero 3); mcolvec (repeat word_zero 3)]].
Lemma short_storable : storable short_buffer.
Proof.
  split; [apply ex_accepted; lia|]. split; [reflexivity|]. intros ch [<-|[]]. split; [reflexivity|].
  unfold fits64, mwf. repeat constructor.
Qed.
Lemma short_compose (A : Arith word) : compose short_buffer 0 = UB.
Proof. vm_compute. reflexivity. Qed.

(** version 2: no channel although one is declared *)
Definition no_channel : buffer word := Buffer (Params [8] 1 1 1) [].
Lemma no_channel_compose (A : Arith word) : compose no_channel 0 = UB.
Proof. vm_compute. reflexivity. Qed.
Lemma no_channel_parsed cd legacy : parse cd legacy (blob_v2 no_channel) = Ok (Some no_channel).
Proof.
  rewrite <- (app_nil_r (blob_v2 _)). apply parse_v2_any.
  - apply ex_accepted. lia.
  - constructor.
  - cbn. lia.
Qed.

(** blobs that make Parse itself leave defined behaviour *)
Definition evil_header (sf : Z) : list Z := [3] ++ put_params (Params [8] 1 1 1) ++ [sf].
Definition evil_size : list Z :=
  evil_header 0 ++ [1; 1; 3; 4] ++ put_u64 (2 ^ 32) ++ put_u64 (2 ^ 32) ++ put_u64 0.
Definition evil_index : list Z :=
  evil_header 1 ++ put_u64 1 ++ put_u64 4 ++ put_u64 1 ++ put_bytes [] ++ put_bytes [].
Lemma evil_size_ub cd legacy : parse cd legacy evil_size = UB.
Proof. vm_compute. reflexivity. Qed.
Lemma evil_index_ub cd legacy : parse cd legacy evil_index = UB.
Proof. vm_compute. reflexivity. Qed.
